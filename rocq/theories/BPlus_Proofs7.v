(** Rearranging two neighbouring children: merge and the two shifts. *)
From Verif Require Import Base BPlus_Model BPlus_Spec BPlus_Proofs BPlus_Proofs2 BPlus_Proofs3 BPlus_Proofs4 BPlus_Proofs5.

Section pair.
  Context {K V : Type}.
  Implicit Types (t : @tree K V) (w : list (@item K V)) (h : nat -> @node K V).
  Notation child := (nat * list nat * list (@item K V))%type.
  Notation caddr := (fun c : child => Some c.1.1).
  Notation cfp := (fun c : child => c.1.2).
  Notation cw := (fun c : child => c.2).

  Lemma entries_weave (ws : list (list (@item K V))) ks :
    length ws = S (length ks) -> entries (weave ws ks) = concat (entries <$> ws).
  Proof.
    revert ks. induction ws as [|w ws IH]; intros [|k ks]; try done.
    - intros [= H]. destruct ws; [|done]. cbn. by rewrite app_nil_r.
    - intros [= H]. cbn [weave]. rewrite entries_app. cbn [fmap list_fmap concat]. f_equal. rewrite <-(IH ks) by done. done.
  Qed.

  (** the children of a node that was not written are as before *)
  Lemma kids_frame M h h' d (ts : list child) (bad : list nat) :
    (forall x, x ∉ bad -> h' x = h x) -> (forall x, x ∈ concat (cfp <$> ts) -> x ∉ bad) ->
    Forall (fun c => M - 1 <= num (h c.1.1) /\ reads M h d c.1.1 c.1.2 c.2) ts ->
    Forall (fun c => M - 1 <= num (h' c.1.1) /\ reads M h' d c.1.1 c.1.2 c.2) ts.
  Proof.
    intros Hh Hb. rewrite !Forall_forall. intros F c Hc. destruct (F c Hc) as [F1 F2].
    assert (Hs : forall x, x ∈ c.1.2 -> h' x = h x).
    { intros x Hx. apply Hh, Hb, elem_concat. exists c.1.2. split; [done|]. apply elem_of_list_fmap. by exists c. }
    split; [|by eapply reads_frame]. rewrite Hs; [done|]. by eapply reads_in.
  Qed.

  Context (t : @tree K V) (rt y z : nat) (nx : option nat) (ks1 ks2 J : list (K * V)) (k : K * V)
          (cs1 cs2 JC : list (option nat)) (d : nat) (fpy fpz : list nat) (wy wz : list (@item K V)).
  Notation M := (degree t).
  Hypothesis HM : 2 <= M.
  Hypothesis Hrt : hp t rt = Node nx (ks1 ++ k :: ks2 ++ J) (cs1 ++ Some y :: Some z :: cs2 ++ JC) (S (length ks1 + length ks2)) false.
  Hypothesis L1 : length cs1 = length ks1.
  Hypothesis L2 : length cs2 = length ks2.
  Hypothesis Ry : reads M (hp t) d y fpy wy.
  Hypothesis Rz : reads M (hp t) d z fpz wz.
  Hypothesis ND : NoDup (rt :: fpy ++ fpz).

  Lemma pair_ne : y <> rt /\ z <> rt /\ y <> z.
  Proof.
    pose proof (reads_in _ _ _ _ _ _ Ry) as Hy. pose proof (reads_in _ _ _ _ _ _ Rz) as Hz.
    apply NoDup_cons in ND as [N1 N2]. rewrite elem_of_app in N1. apply NoDup_app in N2 as (_ & N2 & _).
    splits; [by intros ->; auto|by intros ->; auto|]. intros ->. by apply (N2 z).
  Qed.

  Lemma merge_child_ok :
    num (hp t y) = M - 1 -> num (hp t z) = M - 1 ->
    exists t' u uc fp' w', merge_child rt y z (length ks1) t = Ok t'
      /\ same_meta t t' /\ brk t' = brk t
      /\ hp t' rt = Node nx (ks1 ++ ks2 ++ u :: J) (cs1 ++ Some y :: cs2 ++ uc :: JC) (length ks1 + length ks2) false
      /\ reads M (hp t') d y fp' w' /\ NoDup fp' /\ (forall x, x ∈ fp' -> x ∈ fpy ++ fpz)
      /\ M <= num (hp t' y)
      /\ (forall x, x <> rt -> x <> y -> hp t' x = hp t x)
      /\ entries w' = entries wy ++ entries wz.
  Proof.
    intros Ny Nz. destruct pair_ne as (N1 & N2 & N3).
    apply NoDup_cons in ND as [NDr ND'].
    assert (HP : forall t1, same_meta t t1 -> brk t1 = brk t -> hp t1 rt = hp t rt ->
       forall (n : @tree K V -> res (@tree K V)), exists u uc,
       (let! v := shift_left (num (hp t1 rt) - (length ks1 + 1)) (length ks1 + 1) (vals (hp t1 rt)) in
        let t2 := upd rt (set_vals v) t1 in
        let! c := shift_left (num (hp t2 rt) - (length ks1 + 1)) (length ks1 + 2) (kids (hp t2 rt)) in
        let t3 := upd rt (set_kids c) t2 in
        let! m := dec (num (hp t3 rt)) in n (upd rt (set_num m) t3))
       = (n (upd rt (set_num (length ks1 + length ks2)) (upd rt (set_kids (cs1 ++ Some y :: cs2 ++ uc :: JC)) (upd rt (set_vals (ks1 ++ ks2 ++ u :: J)) t1))))).
    { intros t1 _ _ E1 n. rewrite E1, Hrt. cbn [num vals].
      destruct (shift_left_ok ks1 ks2 J k (S (length ks1 + length ks2) - (length ks1 + 1)) (length ks1 + 1)) as [u Eu]; [lia|lia|].
      rewrite Eu. cbn [rbind]. hs. rewrite E1, Hrt. hs.
      destruct (shift_left_ok (cs1 ++ [Some y]) cs2 JC (Some z) (S (length ks1 + length ks2) - (length ks1 + 1)) (length ks1 + 2)) as [uc Ec];
        [rewrite app_length; simpl; lia|lia|].
      rewrite <-!app_assoc in Ec. cbn [app] in Ec. rewrite Ec. cbn [rbind]. hs. rewrite E1, Hrt. hs. cbn [dec rbind].
      exists u, uc. done. }
    unfold merge_child. destruct d as [|dd].
    - (* leaves *)
      cbn [reads] in Ry, Rz. destruct Ry as (nxy&esy&jy&csy&Ey&Ly1&Ly2&->&->). destruct Rz as (nxz&esz&jz&csz&Ez&Lz1&Lz2&->&->).
      rewrite Ey in Ny |- *. rewrite Ez in Nz. cbn [num leaf] in *. hs. rewrite Ey, Ez. hs.
      rewrite app_length in Ly1, Lz1.
      destruct (length_split (M - 1) (length jy - (M - 1)) jy) as (jy1 & jy2 & -> & Ljy1 & Ljy2); [lia|].
      pose proof (copy_up_ok [] esz jz esy jy1 jy2 (M - 1) 0 (M - 1)) as EC. cbn [app] in EC.
      rewrite EC by (simpl; lia). cbn [rbind].
      set (t1 := upd y _ (upd y _ t)).
      destruct (HP t1 ltac:(done) ltac:(done) ltac:(by unfold t1; hs)
        (fun t => if leaf (hp t y) then let t := upd y (set_next (next (hp t z))) t in let! nx := deref (next (hp t z)) in Ok (set_prev nx (Some y) t) else Ok t)) as (u & uc & EP).
      cbn zeta in EP. rewrite EP. unfold t1. hs. rewrite Ey. hs. rewrite Ez. hs. cbn [deref rbind].
      eexists _, u, uc, [y], (Entry <$> esy ++ esz). split; [done|]. hs. rewrite Hrt, ?Ey. hs. splits; try done.
      + cbn [reads]. exists nxz, (esy ++ esz), jy2, csy. hs. rewrite Ey. hs. splits; try done.
        * unfold set_next, set_vals, set_num. cbn. rewrite <-app_assoc. f_equal. rewrite app_length. lia.
        * rewrite !app_length in *. lia.
      + apply NoDup_singleton.
      + intros x Hx. cbn. by apply elem_of_list_singleton in Hx as ->; left.
      + lia.
      + intros x X1 X2. hs. done.
      + by rewrite fmap_app, entries_app.
    - (* inner nodes *)
      cbn [reads] in Ry, Rz. destruct Ry as (nxy&ksy&jy&tsy&cjy&Ey&Ny1&Ny2&Ly1&Ly2&->&->&Fy).
      destruct Rz as (nxz&ksz&jz&tsz&cjz&Ez&Nz1&Nz2&Lz1&Lz2&->&->&Fz).
      rewrite Ey in Ny |- *. rewrite Ez in Nz. cbn [num leaf] in *. hs. rewrite Ey, Ez. hs.
      rewrite app_length in Ly1, Lz1.
      destruct jy as [|j0 jy]; [simpl in Ly1; lia|]. simpl in Ly1.
      assert (jy' : exists jy1 jy2, jy = jy1 ++ jy2 /\ length jy1 = M - 1 /\ jy2 = []).
      { exists jy, []. rewrite app_nil_r. splits; [done|lia|done]. }
      destruct jy' as (jy1 & jy2 & -> & Ljy1 & ->).
      pose proof (copy_up_ok [] ksz jz (ksy ++ [j0]) jy1 [] (M - 1) 0 M) as EC. rewrite <-!app_assoc in EC. cbn [app] in EC.
      rewrite EC by (rewrite ?app_length; simpl; lia). cbn [rbind]. hs. rewrite Hrt. hs.
      rewrite aget_app by done. cbn [rbind].
      erewrite set_val_ok; cycle 1. { hs. apply aset_app. lia. }
      cbn [rbind]. hs. rewrite Ey, Ez. hs.
      assert (cj' : exists cj1 cj2, cjy = cj1 ++ cj2 /\ length cj1 = M /\ cj2 = []).
      { exists cjy, []. rewrite app_nil_r. splits; [done|lia|done]. }
      destruct cj' as (cj1 & cj2 & -> & Lcj1 & ->).
      pose proof (copy_up_ok [] (caddr <$> tsz) cjz (caddr <$> tsy) cj1 [] M 0 M) as EC2. cbn [app] in EC2.
      rewrite EC2 by (rewrite ?fmap_length; simpl; lia). cbn [rbind]. rewrite !app_nil_r.
      match goal with |- context [shift_left (num (hp ?tt rt) - _)] => set (t1 := tt) end.
      destruct (HP t1 ltac:(done) ltac:(done) ltac:(by unfold t1; hs)
        (fun t => if leaf (hp t y) then let t := upd y (set_next (next (hp t z))) t in let! nx := deref (next (hp t z)) in Ok (set_prev nx (Some y) t) else Ok t)) as (u & uc & EP).
      cbn zeta in EP. rewrite EP. unfold t1. hs. rewrite Ey. hs.
      eexists _, u, uc, (y :: concat (cfp <$> tsy ++ tsz)), (weave (cw <$> tsy ++ tsz) (ksy ++ k :: ksz)). split; [done|]. hs. rewrite Hrt, ?Ey. hs.
      assert (Hfr : forall x, x ∉ [rt; y] -> hp (upd rt (set_num (length ks1 + length ks2))
           (upd rt (set_kids (cs1 ++ Some y :: cs2 ++ uc :: JC)) (upd rt (set_vals (ks1 ++ ks2 ++ u :: J))
           (upd y (set_kids ((caddr <$> tsy) ++ (caddr <$> tsz))) (upd y (set_vals (ksy ++ k :: ksz)) (upd y (set_vals (ksy ++ j0 :: ksz)) (upd y (set_num (2 * M - 1)) t))))))) x = hp t x).
      { intros x. rewrite !elem_of_cons, elem_of_nil. intros Hx. rewrite !hp_upd_ne; [done|..]; intros ->; apply Hx; auto. }
      splits; try done.
      + cbn [reads]. exists nxy, (ksy ++ k :: ksz), [], (tsy ++ tsz), []. hs. rewrite Ey. hs. splits; try done.
        * unfold set_kids, set_vals, set_num. cbn. rewrite !app_nil_r, fmap_app. f_equal. rewrite app_length. simpl. lia.
        * rewrite app_length. simpl. lia.
        * rewrite !app_length. simpl. lia.
        * rewrite !app_length. simpl. lia.
        * rewrite app_length. simpl. lia.
        * apply Forall_app. split.
          -- eapply kids_frame; [exact Hfr| |exact Fy]. intros x Hx Hb. rewrite !elem_of_cons, elem_of_nil in Hb.
             destruct Hb as [->|[->|[]]].
             ++ apply NDr. apply elem_of_app. left. by right.
             ++ apply NoDup_app in ND' as (A & _). by apply NoDup_cons in A as [A _].
          -- eapply kids_frame; [exact Hfr| |exact Fz]. intros x Hx Hb. rewrite !elem_of_cons, elem_of_nil in Hb.
             destruct Hb as [->|[->|[]]].
             ++ apply NDr. apply elem_of_app. right. by right.
             ++ apply NoDup_app in ND' as (_ & A & _). apply (A y); [by left|by right].
      + rewrite fmap_app, concat_app. apply NoDup_app in ND' as (A1 & A2 & A3). apply NoDup_cons in A3 as [A3 A4].
        change (NoDup ((y :: concat (cfp <$> tsy)) ++ concat (cfp <$> tsz))). apply NoDup_app. splits; [done| |done].
        intros x Hx Hx2. apply (A2 x); [done|]. by right.
      + intros x. rewrite fmap_app, concat_app. rewrite !elem_of_app, !elem_of_cons, !elem_of_app. tauto.
      + lia.
      + intros x X1 X2. apply Hfr. rewrite !elem_of_cons, elem_of_nil. tauto.
      + rewrite !entries_weave; rewrite ?fmap_length, ?app_length; simpl; try lia.
        by rewrite !fmap_app, concat_app.
  Qed.

  Lemma snoc_of {A} (l : list A) n : length l = S n -> exists l' x, l = l' ++ [x] /\ length l' = n.
  Proof.
    intros H. destruct l as [|x l' _] using rev_ind; [done|]. exists l', x. rewrite app_length in H. simpl in H. split; [done|lia].
  Qed.

  Lemma shift_to_right_ok :
    M - 1 < num (hp t y) -> num (hp t z) = M - 1 ->
    exists t' k' fpy' wy' fpz' wz', shift_to_right_child rt y z (length ks1) t = Ok t'
      /\ same_meta t t' /\ brk t' = brk t
      /\ hp t' rt = Node nx (ks1 ++ k' :: ks2 ++ J) (cs1 ++ Some y :: Some z :: cs2 ++ JC) (S (length ks1 + length ks2)) false
      /\ reads M (hp t') d y fpy' wy' /\ reads M (hp t') d z fpz' wz' /\ fpy' ++ fpz' ≡ₚ fpy ++ fpz
      /\ M - 1 <= num (hp t' y) /\ M <= num (hp t' z)
      /\ (forall x, x <> rt -> x <> y -> x <> z -> hp t' x = hp t x)
      /\ (entries wy' ++ entries wz' = entries wy ++ entries wz
          \/ (d = 0 /\ overwrite (entries wy ++ entries wz) (entries wy' ++ entries wz'))).
  Proof.
    intros Ny Nz. destruct pair_ne as (N1 & N2 & N3).
    apply NoDup_cons in ND as [NDr ND'].
    unfold shift_to_right_child. destruct d as [|dd].
    - (* leaves *)
      cbn [reads] in Ry, Rz. destruct Ry as (nxy&esy&jy&csy&Ey&Ly1&Ly2&->&->). destruct Rz as (nxz&esz&jz&csz&Ez&Lz1&Lz2&->&->).
      rewrite Ey in Ny. rewrite Ez in Nz. cbn [num leaf] in *. hs. rewrite Ey, Ez. hs.
      rewrite app_length in Ly1, Lz1.
      destruct (snoc_of esy (length esy - 1)) as (es' & b & -> & Le'); [lia|].
      destruct (snoc_of es' (length es' - 1)) as (es & a & -> & Le); [rewrite app_length in Ny; simpl in Ny; lia|].
      destruct esz as [|z0 esz]; [simpl in Nz; lia|]. destruct jz as [|j0 jz]; [simpl in *; lia|].
      rewrite !app_length in *. simpl length in *.
      replace (length es + 1 + 1) with (S (S (length es))) by lia. cbn [dec rbind].
      rewrite <-!app_assoc. cbn [app].
      rewrite (aget_app (es ++ [a]) b) || idtac.
      replace (es ++ a :: b :: jy) with ((es ++ [a]) ++ b :: jy) by by rewrite <-app_assoc.
      rewrite aget_app by (rewrite app_length; simpl; lia). cbn [rbind].
      erewrite set_val_ok; cycle 1. { hs. rewrite Ez. hs. apply (aset_app [] z0 b). done. }
      cbn [rbind app]. hs. rewrite Ey. hs. rewrite <-!app_assoc. cbn [app].
      rewrite aget_app by done. cbn [rbind].
      erewrite set_val_ok; cycle 1. { hs. rewrite Hrt. hs. apply aset_app. done. }
      cbn [rbind]. hs. rewrite Ez. hs.
      destruct (shift_right_ok [] (b :: esz) jz j0 (S (length esz)) (S (length esz) - 1)) as (u & Eu & Hu); [simpl; lia|done|].
      cbn [app] in Eu, Hu. injection Hu as <-.
      replace (S (length esz) + 1 - 1) with (S (length esz)) by lia. replace (S (length esz) + 1 - 2) with (S (length esz) - 1) by lia.
      rewrite Eu. cbn [rbind]. hs. rewrite Ez. hs. cbn [rbind].
      eexists _, a, [y], (Entry <$> es ++ [a]), [z], (Entry <$> b :: b :: esz). split; [done|]. hs. rewrite Hrt, ?Ey, ?Ez. hs.
      splits; try done.
      + cbn [reads]. exists nxy, (es ++ [a]), (b :: jy), csy. hs. rewrite Ey. hs. splits; try done.
        * unfold set_num. cbn. rewrite <-!app_assoc. cbn. f_equal. rewrite app_length. simpl. lia.
        * rewrite !app_length. simpl. lia.
      + cbn [reads]. exists nxz, (b :: b :: esz), jz, csz. hs. rewrite Ez. hs. splits; try done.
        * unfold set_num, set_vals. cbn. f_equal. lia.
        * simpl. rewrite app_length. lia.
      + lia.
      + lia.
      + intros x X1 X2 X3. hs. done.
      + right. split; [done|]. exists (es ++ [a]), b, z0, esz. rewrite !entries_leaf. by rewrite <-!app_assoc.
    - (* inner nodes *)
      cbn [reads] in Ry, Rz. destruct Ry as (nxy&ksy&jy&tsy&cjy&Ey&Ny1&Ny2&Ly1&Ly2&->&->&Fy).
      destruct Rz as (nxz&ksz&jz&tsz&cjz&Ez&Nz1&Nz2&Lz1&Lz2&->&->&Fz).
      rewrite Ey in Ny. rewrite Ez in Nz. cbn [num leaf] in *. hs. rewrite Ey, Ez. hs.
      rewrite app_length in Ly1, Lz1.
      destruct (snoc_of ksy (length ksy - 1)) as (ks & b & -> & Le'); [lia|].
      destruct (snoc_of tsy (length tsy - 1)) as (ts & c & -> & Lt'); [lia|].
      destruct ksz as [|z0 ksz]; [simpl in Nz; lia|]. destruct jz as [|j0 jz]; [simpl in *; lia|].
      destruct cjz as [|jc0 cjz]; [simpl in *; lia|].
      rewrite !app_length in *. simpl length in *.
      replace (length ks + 1) with (S (length ks)) by lia. cbn [dec rbind].
      rewrite Hrt. hs. rewrite aget_app by done. cbn [rbind].
      erewrite set_val_ok; cycle 1. { hs. rewrite Ez. hs. apply (aset_app [] z0 k). done. }
      cbn [rbind app]. hs. rewrite Ey. hs. rewrite <-!app_assoc. cbn [app].
      rewrite aget_app by done. cbn [rbind].
      erewrite set_val_ok; cycle 1. { hs. rewrite Hrt. hs. apply aset_app. done. }
      cbn [rbind]. hs. rewrite Ez. hs.
      destruct (shift_right_ok [] (k :: ksz) jz j0 (S (length ksz)) (S (length ksz) - 1)) as (u & Eu & Hu); [simpl; lia|done|].
      cbn [app] in Eu, Hu. injection Hu as <-.
      replace (S (length ksz) + 1 - 1) with (S (length ksz)) by lia. replace (S (length ksz) + 1 - 2) with (S (length ksz) - 1) by lia.
      rewrite Eu. cbn [rbind]. hs. rewrite Ez. hs.
      destruct (shift_right_ok [] (caddr <$> tsz) cjz jc0 (S (length ksz) + 1) (S (length ksz))) as (uc & Ec & _);
        [simpl; lia|rewrite fmap_length; lia|].
      cbn [app] in Ec. replace (S (length ksz) + 1 - 1) with (S (length ksz)) by lia. rewrite Ec. cbn [rbind]. hs. rewrite Ey. hs.
      rewrite fmap_app. cbn [fmap list_fmap]. rewrite <-!app_assoc. cbn [app].
      rewrite aget_app by (rewrite fmap_length, ?app_length; simpl; lia). cbn [rbind].
      erewrite set_kid_ok; cycle 1. { hs. apply (aset_app [] uc (Some c.1.1)). done. }
      cbn [rbind app].
      eexists _, b, (y :: concat (cfp <$> ts)), (weave (cw <$> ts) ks), (z :: concat (cfp <$> c :: tsz)), (weave (cw <$> c :: tsz) (k :: k :: ksz)).
      split; [done|]. hs. rewrite Hrt, ?Ey, ?Ez. hs.
      rewrite fmap_app, concat_app in NDr, ND'. apply Forall_app in Fy as [Fy [Fc _]%Forall_cons].
      assert (Hfr : forall h' (ts' : list child), (forall x, x <> rt -> x <> y -> x <> z -> h' x = hp t x) ->
         (forall cc, cc ∈ ts' -> cc ∈ (ts ++ [c]) ++ tsz) ->
         Forall (fun c => M - 1 <= num (hp t c.1.1) /\ reads M (hp t) dd c.1.1 c.1.2 c.2) ts' ->
         Forall (fun c => M - 1 <= num (h' c.1.1) /\ reads M h' dd c.1.1 c.1.2 c.2) ts').
      { intros h' ts' Hh Hts. apply (kids_frame _ _ _ _ _ [rt; y; z]).
        - intros x. rewrite !elem_of_cons, elem_of_nil. intros Hx. apply Hh; tauto.
        - intros x Hx Hb. apply elem_concat in Hx as (lx & Hx & Hlx). apply elem_of_list_fmap in Hlx as (cc & -> & Hcc).
          apply Hts in Hcc.
          assert (Hxx : x ∈ concat (cfp <$> (ts ++ [c])) \/ x ∈ concat (cfp <$> tsz)).
          { apply elem_of_app in Hcc as [Hcc|Hcc]; [left|right]; apply elem_concat; exists cc.1.2; (split; [done|]); apply elem_of_list_fmap; by exists cc. }
          rewrite fmap_app, concat_app in Hxx.
          apply NoDup_app in ND' as (A1 & A2 & A3). apply NoDup_cons in A1 as [A1 _]. apply NoDup_cons in A3 as [A3 _].
          rewrite !elem_of_cons, elem_of_nil in Hb. destruct Hb as [->|[->|[->|[]]]].
          + apply NDr. rewrite elem_of_app, !elem_of_cons. tauto.
          + destruct Hxx as [Hxx|Hxx]; [done|]. apply (A2 y); [by left|by right].
          + destruct Hxx as [Hxx|Hxx]; [|done]. apply (A2 z); [by right|by left]. }
      splits; try done.
      + cbn [reads]. exists nxy, ks, (b :: jy), ts, (Some c.1.1 :: cjy). hs. rewrite Ey. hs. splits; try done; try lia.
        * unfold set_num. cbn. rewrite <-!app_assoc. cbn. rewrite fmap_app. cbn. by rewrite <-!app_assoc.
        * rewrite !app_length. simpl. lia.
        * simpl. lia.
        * apply Hfr; [|intros cc Hcc; rewrite !elem_of_app; auto|done]. intros x X1 X2 X3. hs. done.
      + cbn [reads]. exists nxz, (k :: k :: ksz), jz, (c :: tsz), cjz. hs. rewrite Ez. hs. splits; try done; cbn [length app]; try lia.
        * unfold set_num, set_vals, set_kids. cbn. f_equal. lia.
        * rewrite app_length. lia.
        * apply Hfr.
          -- intros x X1 X2 X3. hs. done.
          -- intros cc Hcc. apply elem_of_cons in Hcc. rewrite !elem_of_app, elem_of_list_singleton. tauto.
          -- constructor; done.
      + rewrite fmap_app, concat_app. cbn [fmap list_fmap concat]. rewrite app_nil_r. cbn [app].
        constructor. rewrite <-!app_assoc. apply Permutation_app_head. cbn [app]. by rewrite Permutation_middle.
      + lia.
      + lia.
      + intros x X1 X2 X3. hs. done.
      + left. rewrite !entries_weave; rewrite ?fmap_length, ?app_length; simpl; try lia.
        rewrite fmap_app, fmap_app, concat_app. cbn. by rewrite app_nil_r, <-app_assoc.
  Qed.

  Lemma shift_to_left_ok :
    num (hp t y) = M - 1 -> M - 1 < num (hp t z) ->
    exists t' k' fpy' wy' fpz' wz', shift_to_left_child rt y z (length ks1) t = Ok t'
      /\ same_meta t t' /\ brk t' = brk t
      /\ hp t' rt = Node nx (ks1 ++ k' :: ks2 ++ J) (cs1 ++ Some y :: Some z :: cs2 ++ JC) (S (length ks1 + length ks2)) false
      /\ reads M (hp t') d y fpy' wy' /\ reads M (hp t') d z fpz' wz' /\ fpy' ++ fpz' ≡ₚ fpy ++ fpz
      /\ M <= num (hp t' y) /\ M - 1 <= num (hp t' z)
      /\ (forall x, x <> rt -> x <> y -> x <> z -> hp t' x = hp t x)
      /\ entries wy' ++ entries wz' = entries wy ++ entries wz.
  Proof.
    intros Ny Nz. destruct pair_ne as (N1 & N2 & N3).
    apply NoDup_cons in ND as [NDr ND'].
    unfold shift_to_left_child. destruct d as [|dd].
    - (* leaves *)
      cbn [reads] in Ry, Rz. destruct Ry as (nxy&esy&jy&csy&Ey&Ly1&Ly2&->&->). destruct Rz as (nxz&esz&jz&csz&Ez&Lz1&Lz2&->&->).
      rewrite Ey in Ny. rewrite Ez in Nz. cbn [num leaf] in *. hs. rewrite Ey, Ez. hs.
      rewrite app_length in Ly1, Lz1.
      destruct esz as [|z0 esz]; [simpl in Nz; lia|]. destruct jy as [|j0 jy]; [simpl in *; lia|].
      simpl length in *. change ((z0 :: esz) ++ jz) with ([] ++ z0 :: (esz ++ jz)). rewrite aget_app by done. cbn [rbind].
      erewrite set_val_ok; cycle 1. { hs. rewrite Ey. hs. apply aset_app. lia. }
      cbn [rbind]. hs. rewrite Ez. hs. change ((z0 :: esz) ++ jz) with ([] ++ z0 :: (esz ++ jz)). rewrite aget_app by done. cbn [rbind].
      erewrite set_val_ok; cycle 1. { hs. rewrite Hrt. hs. apply aset_app. done. }
      cbn [rbind]. hs. rewrite Ez. hs.
      destruct (shift_left_ok [] esz jz z0 (S (length esz) - 1) 1) as (u & Eu); [done|simpl; lia|].
      cbn [app] in Eu. cbn [length app]. rewrite Eu. cbn [rbind]. hs. rewrite Ez. hs. cbn [rbind]. hs. rewrite Ez. hs. cbn [length dec rbind].
      eexists _, z0, [y], (Entry <$> esy ++ [z0]), [z], (Entry <$> esz). split; [done|]. hs. rewrite Hrt, ?Ey, ?Ez. hs.
      splits; try done.
      + cbn [reads]. exists nxy, (esy ++ [z0]), jy, csy. hs. rewrite Ey. hs. splits; try done.
        * unfold set_num, set_vals. cbn. rewrite <-!app_assoc. cbn. f_equal. rewrite app_length. simpl. lia.
        * rewrite !app_length. simpl. lia.
      + cbn [reads]. exists nxz, esz, (u :: jz), csz. hs. rewrite Ez. hs. splits; try done.
        rewrite app_length. simpl. lia.
      + lia.
      + lia.
      + intros x X1 X2 X3. hs. done.
      + rewrite !entries_leaf. by rewrite <-app_assoc.
    - (* inner nodes *)
      cbn [reads] in Ry, Rz. destruct Ry as (nxy&ksy&jy&tsy&cjy&Ey&Ny1&Ny2&Ly1&Ly2&->&->&Fy).
      destruct Rz as (nxz&ksz&jz&tsz&cjz&Ez&Nz1&Nz2&Lz1&Lz2&->&->&Fz).
      rewrite Ey in Ny. rewrite Ez in Nz. cbn [num leaf] in *. hs. rewrite Ey, Ez. hs.
      rewrite app_length in Ly1, Lz1.
      destruct ksz as [|z0 ksz]; [simpl in Nz; lia|]. destruct jy as [|j0 jy]; [simpl in *; lia|].
      destruct tsz as [|c tsz]; [simpl in *; lia|]. destruct cjy as [|jc0 cjy]; [simpl in *; lia|].
      simpl length in *. rewrite Hrt. hs. rewrite aget_app by done. cbn [rbind].
      erewrite set_val_ok; cycle 1. { hs. rewrite Ey. hs. apply aset_app. lia. }
      cbn [rbind]. hs. rewrite Ez. hs. change ((z0 :: ksz) ++ jz) with ([] ++ z0 :: (ksz ++ jz)). rewrite aget_app by done. cbn [rbind].
      erewrite set_val_ok; cycle 1. { hs. rewrite Hrt. hs. apply aset_app. done. }
      cbn [rbind]. hs. rewrite Ez. hs.
      destruct (shift_left_ok [] ksz jz z0 (S (length ksz) - 1) 1) as (u & Eu); [done|simpl; lia|].
      cbn [app] in Eu. cbn [length app]. rewrite Eu. cbn [rbind]. hs. rewrite Ez. hs. cbn [fmap list_fmap app].
      change (Some c.1.1 :: (caddr <$> tsz) ++ cjz) with ([] ++ Some c.1.1 :: ((caddr <$> tsz) ++ cjz)) at 1.
      rewrite aget_app by done. cbn [rbind].
      erewrite set_kid_ok; cycle 1. { hs. rewrite Ey. hs. apply aset_app. rewrite fmap_length. lia. }
      cbn [rbind]. hs. rewrite Ez. hs. cbn [fmap list_fmap app].
      destruct (shift_left_ok [] (caddr <$> tsz) cjz (Some c.1.1) (S (length ksz)) 1) as (uc & Ec); [done|rewrite fmap_length; lia|].
      cbn [app] in Ec. cbn [length]. rewrite Ec. cbn [rbind]. hs. rewrite Ez. hs. cbn [length dec rbind].
      eexists _, z0, (y :: concat (cfp <$> tsy ++ [c])), (weave (cw <$> tsy ++ [c]) (ksy ++ [k])), (z :: concat (cfp <$> tsz)), (weave (cw <$> tsz) ksz).
      split; [done|]. hs. rewrite Hrt, ?Ey, ?Ez. hs.
      cbn [fmap list_fmap concat] in NDr, ND'. apply Forall_cons in Fz as [Fc Fz].
      assert (Hfr : forall h' (ts' : list child), (forall x, x <> rt -> x <> y -> x <> z -> h' x = hp t x) ->
         (forall cc, cc ∈ ts' -> cc ∈ tsy ++ c :: tsz) ->
         Forall (fun c => M - 1 <= num (hp t c.1.1) /\ reads M (hp t) dd c.1.1 c.1.2 c.2) ts' ->
         Forall (fun c => M - 1 <= num (h' c.1.1) /\ reads M h' dd c.1.1 c.1.2 c.2) ts').
      { intros h' ts' Hh Hts. apply (kids_frame _ _ _ _ _ [rt; y; z]).
        - intros x. rewrite !elem_of_cons, elem_of_nil. intros Hx. apply Hh; tauto.
        - intros x Hx Hb. apply elem_concat in Hx as (lx & Hx & Hlx). apply elem_of_list_fmap in Hlx as (cc & -> & Hcc).
          apply Hts in Hcc.
          assert (Hxx : x ∈ concat (cfp <$> tsy) \/ x ∈ concat (cfp <$> c :: tsz)).
          { apply elem_of_app in Hcc as [Hcc|Hcc]; [left|right]; apply elem_concat; exists cc.1.2; (split; [done|]); apply elem_of_list_fmap; by exists cc. }
          cbn [fmap list_fmap concat] in Hxx.
          apply NoDup_app in ND' as (A1 & A2 & A3). apply NoDup_cons in A1 as [A1 _]. apply NoDup_cons in A3 as [A3 _].
          rewrite !elem_of_cons, elem_of_nil in Hb. destruct Hb as [->|[->|[->|[]]]].
          + apply NDr. rewrite elem_of_app, !elem_of_cons. tauto.
          + destruct Hxx as [Hxx|Hxx]; [done|]. apply (A2 y); [by left|by right].
          + destruct Hxx as [Hxx|Hxx]; [|done]. apply (A2 z); [by right|by left]. }
      splits; try done.
      + cbn [reads]. exists nxy, (ksy ++ [k]), jy, (tsy ++ [c]), cjy. hs. rewrite Ey. hs. rewrite !app_length. cbn [length]. splits; try done; try lia.
        * unfold set_num, set_vals, set_kids. cbn. rewrite <-!app_assoc. cbn. rewrite fmap_app. cbn. by rewrite <-!app_assoc.
        * apply Hfr.
          -- intros x X1 X2 X3. hs. done.
          -- intros cc Hcc. rewrite elem_of_app, elem_of_cons. rewrite elem_of_app, elem_of_list_singleton in Hcc. tauto.
          -- apply Forall_app. split; [done|]. by constructor.
      + cbn [reads]. exists nxz, ksz, (u :: jz), tsz, (uc :: cjz). hs. rewrite Ez. hs. splits; try done; cbn [length app]; try lia.
        * rewrite app_length. simpl. lia.
        * apply Hfr; [|intros cc Hcc; rewrite elem_of_app, elem_of_cons; auto|done]. intros x X1 X2 X3. hs. done.
      + rewrite fmap_app, concat_app. cbn [fmap list_fmap concat]. rewrite app_nil_r. cbn [app].
        constructor. rewrite <-!app_assoc. apply Permutation_app_head. by rewrite Permutation_middle.
      + lia.
      + lia.
      + intros x X1 X2 X3. hs. done.
      + rewrite !entries_weave; rewrite ?fmap_length, ?app_length; simpl; rewrite ?fmap_length; try lia.
        rewrite fmap_app, fmap_app, concat_app. cbn. by rewrite app_nil_r, <-app_assoc.
  Qed.
End pair.
