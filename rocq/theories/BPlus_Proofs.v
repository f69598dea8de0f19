(** Loops over slices, and readings. *)
From Verif Require Import Base BPlus_Model BPlus_Spec.

Lemma aget_app {A} (a : list A) x b i : i = length a -> aget (a ++ x :: b) i = Ok x.
Proof. intros ->. unfold aget. by rewrite list_lookup_middle. Qed.
Lemma aset_app {A} (a : list A) x y b i : i = length a -> aset (a ++ x :: b) i y = Ok (a ++ y :: b).
Proof.
  intros ->. unfold aset. rewrite decide_True by (rewrite app_length; simpl; lia).
  by rewrite insert_app_r_alt, Nat.sub_diag by lia.
Qed.
Lemma aget_lt {A} (v : list A) i : i < length v -> exists x, aget v i = Ok x /\ v !! i = Some x.
Proof. intros [x E]%lookup_lt_is_Some. exists x. unfold aget. by rewrite E. Qed.

Lemma copy_up_ok {A} (a x b c y e : list A) n si di :
  si = length a -> length x = n -> di = length c -> length y = n ->
  copy_up n si di (a ++ x ++ b) (c ++ y ++ e) = Ok (c ++ x ++ e).
Proof.
  revert a x c y si di. induction n as [|n IH]; intros a x c y si di -> Hx -> Hy.
  { by destruct x, y. }
  destruct x as [|x0 x]; [done|]. destruct y as [|y0 y]; [done|]. cbn [copy_up].
  cbn [app]. rewrite aget_app by done. cbn [rbind]. rewrite aset_app by done. cbn [rbind].
  specialize (IH (a ++ [x0]) x (c ++ [x0]) y (S (length a)) (S (length c))).
  rewrite <-!app_assoc in IH. cbn [app] in IH. apply IH; rewrite ?app_length; simpl in *; lia.
Qed.

Lemma shift_left_ok {A} (a x b : list A) y n j :
  j = S (length a) -> length x = n ->
  exists u, shift_left n j (a ++ y :: x ++ b) = Ok (a ++ x ++ u :: b).
Proof.
  revert a y x j. induction n as [|n IH]; intros a y x j -> Hx.
  { destruct x; [|done]. by exists y. }
  destruct x as [|x0 x]; [done|]. cbn [shift_left app].
  replace (a ++ y :: x0 :: x ++ b) with ((a ++ [y]) ++ x0 :: x ++ b) by by rewrite <-app_assoc.
  rewrite aget_app by (rewrite app_length; simpl; lia). cbn [rbind].
  rewrite <-app_assoc. cbn [app]. rewrite aset_app by lia. cbn [rbind].
  destruct (IH (a ++ [x0]) x0 x (S (S (length a)))) as [u E]; [rewrite app_length; simpl; lia|simpl in *; lia|].
  exists u. rewrite <-!app_assoc in E. cbn [app] in E. by rewrite E.
Qed.

Lemma shift_right_ok {A} (a x b : list A) y n i :
  i = length a + n - 1 -> length x = n ->
  exists u, shift_right n i (a ++ x ++ y :: b) = Ok (a ++ u :: x ++ b) /\ head (x ++ [y]) = Some u.
Proof.
  revert x y b i. induction n as [|n IH]; intros x y b i -> Hx.
  { destruct x; [|done]. by exists y. }
  destruct x as [|x0 x _] using rev_ind; [done|]. rewrite app_length in Hx. simpl in Hx.
  cbn [shift_right]. rewrite <-!app_assoc. cbn [app]. rewrite (app_assoc a x).
  rewrite aget_app by (rewrite app_length; lia). cbn [rbind].
  replace ((a ++ x) ++ x0 :: y :: b) with ((a ++ x ++ [x0]) ++ y :: b) by by rewrite <-!app_assoc.
  rewrite aset_app by (rewrite !app_length; simpl; lia). cbn [rbind].
  destruct (IH x x0 (x0 :: b) (length a + S n - 1 - 1)) as (u & E & Hu); [lia|lia|].
  rewrite <-!app_assoc. cbn [app]. rewrite E.
  exists u. split; [done|]. by destruct x.
Qed.

Section weave.
  Context {K V : Type}.
  Implicit Types (ws : list (list (@item K V))) (ks : list (K * V)) (w : list (@item K V)).

  Lemma entries_app w1 w2 : entries (w1 ++ w2) = entries w1 ++ entries w2.
  Proof. apply omap_app. Qed.
  Lemma separators_app w1 w2 : separators (w1 ++ w2) = separators w1 ++ separators w2.
  Proof. apply omap_app. Qed.
  Lemma entries_leaf (es : list (K * V)) : entries (Entry <$> es) = es.
  Proof. induction es as [|e es IH]; [done|]. cbn. f_equal. exact IH. Qed.
  Lemma elem_entries e w : e ∈ entries w <-> Entry e ∈ w.
  Proof.
    unfold entries. rewrite elem_of_list_omap. split.
    - intros ([x|x] & Hx & [=]); by subst.
    - intros H. by exists (Entry e).
  Qed.
  Lemma elem_separators e w : e ∈ separators w <-> Sep e ∈ w.
  Proof.
    unfold separators. rewrite elem_of_list_omap. split.
    - intros ([x|x] & Hx & [=]); by subst.
    - intros H. by exists (Sep e).
  Qed.

  (** the readings before and after one child *)
  Definition wpre ws ks : list item := concat (zip_with (fun w k => w ++ [Sep k]) ws ks).
  Definition wpost ks ws : list item := concat (zip_with (fun k w => Sep k :: w) ks ws).

  Lemma weave_cons w ws ks : length ws = length ks -> weave (w :: ws) ks = w ++ wpost ks ws.
  Proof.
    revert w ks. induction ws as [|w' ws IH]; intros w [|k ks]; try done.
    { intros _. cbn. by rewrite app_nil_r. }
    intros [= H]. cbn [weave]. unfold wpost. cbn [zip_with concat].
    fold (wpost ks ws). cbn [app]. f_equal. f_equal. rewrite <-IH by done. done.
  Qed.
  Lemma weave_focus ws1 w ws2 ks1 ks2 :
    length ws1 = length ks1 -> length ws2 = length ks2 ->
    weave (ws1 ++ w :: ws2) (ks1 ++ ks2) = wpre ws1 ks1 ++ w ++ wpost ks2 ws2.
  Proof.
    revert ks1. induction ws1 as [|w1 ws1 IH]; intros [|k1 ks1]; try done.
    { intros _ H. cbn [app]. by apply weave_cons. }
    intros [= H1] H2. cbn [app weave]. rewrite IH by done. unfold wpre. cbn [zip_with concat].
    by rewrite <-!app_assoc.
  Qed.
  Lemma weave_app ws1 ws2 ks1 k ks2 :
    length ws1 = S (length ks1) ->
    weave (ws1 ++ ws2) (ks1 ++ k :: ks2) = weave ws1 ks1 ++ Sep k :: weave ws2 ks2.
  Proof.
    revert ks1. induction ws1 as [|w1 ws1 IH]; [done|].
    intros [|k1 ks1] [= H].
    { destruct ws1; [|done]. done. }
    cbn [app weave]. rewrite IH by done. by rewrite <-app_assoc.
  Qed.
  Lemma wpost_cons k ks w ws : wpost (k :: ks) (w :: ws) = Sep k :: w ++ wpost ks ws.
  Proof. done. Qed.
  Lemma wpre_snoc ks k ws w : length ws = length ks -> wpre (ws ++ [w]) (ks ++ [k]) = wpre ws ks ++ w ++ [Sep k].
  Proof. intros H. unfold wpre. rewrite zip_with_app by done. by rewrite concat_app; cbn; rewrite app_nil_r. Qed.
End weave.

Lemma elem_concat {A} (x : A) (ls : list (list A)) : x ∈ concat ls <-> exists l, x ∈ l /\ l ∈ ls.
Proof.
  induction ls as [|l ls IH]; cbn.
  - split; [by intros ?%elem_of_nil|]. by intros (l & _ & ?%elem_of_nil).
  - rewrite elem_of_app, IH. setoid_rewrite elem_of_cons. split.
    + intros [H|(l' & H1 & H2)]; [by exists l; auto|]. exists l'; auto.
    + intros (l' & H1 & [->|H2]); [by left|]. right. by exists l'.
Qed.

Section frame.
  Context {K V : Type}.
  Implicit Types (h : nat -> @node K V).

  Lemma reads_in M h d l fp w : reads M h d l fp w -> l ∈ fp.
  Proof. destruct d; cbn; [intros (?&?&?&?&?&?&?&->&?)|intros (?&?&?&?&?&?&?&?&?&?&->&?)]; left. Qed.

  Lemma reads_frame M h h' d l fp w :
    (forall x, x ∈ fp -> h' x = h x) -> reads M h d l fp w -> reads M h' d l fp w.
  Proof.
    revert l fp w. induction d as [|d IH]; intros l fp w Hx.
    - cbn. intros (nx&es&jk&cs&E&L1&L2&->&->). exists nx, es, jk, cs. rewrite Hx by left. done.
    - cbn. intros (nx&ks&jk&ts&cj&E&N1&N2&L1&L2&->&->&F).
      exists nx, ks, jk, ts, cj. rewrite Hx by left. splits; try done.
      rewrite Forall_forall in F |- *. intros c Hc. destruct (F c Hc) as [F1 F2].
      assert (Hs : forall x, x ∈ c.1.2 -> h' x = h x).
      { intros x Hxc. apply Hx. right. apply elem_concat.
        exists c.1.2. split; [done|]. apply elem_of_list_fmap. by exists c. }
      split; [|by apply IH]. rewrite Hs; [done|]. by eapply reads_in.
  Qed.

  Lemma reads_lengths M h d l fp w : reads M h d l fp w ->
    length (vals (h l)) = 2 * M - 1 /\ length (kids (h l)) = 2 * M /\ num (h l) <= 2 * M - 1 /\ leaf (h l) = bool_decide (d = 0).
  Proof.
    destruct d; cbn.
    - intros (nx&es&jk&cs&E&L1&L2&->&->). rewrite E. cbn. rewrite app_length in L1. rewrite app_length.
      subst cs. rewrite replicate_length. splits; try done; lia.
    - intros (nx&ks&jk&ts&cj&E&N1&N2&L1&L2&->&->&F). rewrite E. cbn.
      rewrite app_length in L1. rewrite !app_length, fmap_length. splits; try done; lia.
  Qed.

  Lemma reads_depth M h d l fp w : reads M h d l fp w -> d < length fp.
  Proof.
    revert l fp w. induction d as [|d IH]; intros l fp w; cbn.
    - intros (?&?&?&?&?&?&?&->&?). simpl. lia.
    - intros (nx&ks&jk&ts&cj&E&N1&N2&L1&L2&->&->&F).
      destruct ts as [|c ts]; [done|]. apply Forall_cons in F as [[_ F] _]. apply IH in F.
      cbn [length fmap list_fmap concat]. rewrite app_length. lia.
  Qed.
End frame.
