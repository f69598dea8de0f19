(** Invariants of TryFold with callbacks that take time. *)
From Verif Require Import Base Lin_Spec Busy_Model Busy_Spec Busy_Proofs.

Section worker.
  Context {T : Type} (i : nat).
  Inductive tgone : T -> list T -> list (tev T) -> T -> list T -> Prop :=
  | tg_here a l : tgone a l [] a l
  | tg_more a x l b es a' l' : tgone b l es a' l' -> tgone a (x :: l) ([TPull i; TPulled i (Some x); TCall i a x; TRet i b true] ++ es) a' l'.
  Lemma tgone_snoc a l es a' x l' b : tgone a l es a' (x :: l') -> tgone a l (es ++ [TPull i; TPulled i (Some x); TCall i a' x; TRet i b true]) b l'.
  Proof.
    remember (x :: l') as l1 eqn:E. intros G. revert x l' E. induction G as [a l|a y l c es a' l1 G IH]; intros x l' ->.
    - change ([] ++ [TPull i; TPulled i (Some x); TCall i a x; TRet i b true]) with ([TPull i; TPulled i (Some x); TCall i a x; TRet i b true] ++ []). constructor. constructor.
    - rewrite <- app_assoc. constructor. by apply IH.
  Qed.
  Lemma tgone_end a l es a' : tgone a l es a' [] -> tcompletes i a l (es ++ [TPull i; TPulled i None]) a'.
  Proof.
    remember [] as l1 eqn:E. intros G. revert E. induction G as [a l|a y l c es a' l1 G IH]; intros E; [subst l; constructor|].
    rewrite <- app_assoc. constructor. by apply IH.
  Qed.
  Definition tsits (a0 : T) (l0 : list T) (es : list (tev T)) (w : tworker T) : Prop :=
    match w with
    | TAt l a => tgone a0 l0 es a l
    | TIn l a => exists es', tgone a0 l0 es' a l /\ es = es' ++ [TPull i]
    | TGot x l a | THave x l a => exists es', tgone a0 l0 es' a (x :: l) /\ es = es' ++ [TPull i; TPulled i (Some x)]
    | TBusy x l a => exists es', tgone a0 l0 es' a (x :: l) /\ es = es' ++ [TPull i; TPulled i (Some x); TCall i a x]
    | TNo => truns i a0 l0 es /\ exists b, TRet i b false ∈ es
    | TOut a => tcompletes i a0 l0 es a
    | TDone => truns i a0 l0 es
    end.
  Lemma tgone_runs a l es a' l' tl : tgone a l es a' l' -> truns i a' l' tl -> truns i a l (es ++ tl).
  Proof. intros G Rn. induction G; [done|]. rewrite <- app_assoc. constructor. by apply IHG. Qed.
  Lemma tcompletes_runs (a : T) l es r : tcompletes i a l es r -> truns i a l es.
  Proof. intros C. induction C; constructor; done. Qed.
  Lemma tsits_runs a l es w : tsits a l es w -> truns i a l es.
  Proof.
    destruct w; cbn [tsits]; intros S; try done.
    - rewrite <- (app_nil_r es). eapply tgone_runs; [done|constructor].
    - destruct S as (es' & G & ->). eapply tgone_runs; [done|constructor].
    - destruct S as (es' & G & ->). eapply tgone_runs; [done|constructor].
    - destruct S as (es' & G & ->). eapply tgone_runs; [done|constructor].
    - destruct S as (es' & G & ->). eapply tgone_runs; [done|constructor].
    - by destruct S.
    - by eapply tcompletes_runs.
  Qed.
End worker.
Definition tmu {T} (w : tworker T) : nat :=
  match w with
  | TAt l _ => 5 * length l + 5 | TIn l _ => 5 * length l + 4 | TGot _ l _ => 5 * length l + 8 | THave _ l _ => 5 * length l + 7
  | TBusy _ l _ => 5 * length l + 6 | TNo => 1 | TOut _ => 3 | TDone => 0
  end.
Lemma town_app {T} i (h h' : list (tev T)) : town i (h ++ h') = town i h ++ town i h'.
Proof. apply filter_app. Qed.
Lemma town_other {T} i (e : tev T) : towner e <> Some i -> town i [e] = [].
Proof. intros N. unfold town. by rewrite filter_cons_False. Qed.
Lemma town_same {T} i (e : tev T) : towner e = Some i -> town i [e] = [e].
Proof. intros N. unfold town. by rewrite filter_cons_True. Qed.
Lemma town_in {T} i (h : list (tev T)) e : e ∈ town i h -> e ∈ h.
Proof. intros H. by apply elem_of_list_filter in H as [_ H]. Qed.
Lemma tfolds_snoc {T} a rs (es : list (tev T)) v r b : tfolds a rs es v -> tfolds a (rs ++ [r]) (es ++ [TFold v r; TFolded b true]) b.
Proof. induction 1; cbn; repeat constructor. done. Qed.

Section tryfold.
  Context {T : Type} (zero : T) (p : nat) (segs : list (list T)) (init : T).
  Notation stp := (tstep zero p segs init).
  Definition tstarted (m : tmain T) : nat := match m with TSpawn k => k | _ => length segs end.
  Definition tcaller_at (m : tmain T) (taken : list T) (es : list (tev T)) : Prop :=
    match m with
    | TSpawn _ => taken = [] /\ es = []
    | TRecv c a _ => length taken = c /\ tfolds init taken es a /\ c <= p
    | TFolding c a r => exists ts es', taken = ts ++ [r] /\ es = es' ++ [TFold a r] /\ length ts = c /\ tfolds init ts es' a /\ c < p
    | TRefused a => TFolded a false ∈ es
    | TReturned a true => length taken = p /\ tfolds init taken es a
    | TReturned a false => True
    end.
  Record tinv (h : list (tev T)) (x : tstate T) (got : list (nat * T)) (taken : list T) : Prop := {
    ti_len : length (tws x) = tstarted (tm x);
    ti_started : tstarted (tm x) <= length segs;
    ti_none : forall i, tws x !! i = None -> town i h = [];
    ti_some : forall i w, tws x !! i = Some w -> exists l, segs !! i = Some l /\ tsits i init l (town i h) w;
    ti_nodup : NoDup (got.*1);
    ti_got : forall i r, (i, r) ∈ got -> tws x !! i = Some TDone /\ exists l, segs !! i = Some l /\ tcompletes i init l (town i h) r;
    ti_done : forall i, tws x !! i = Some TDone -> i ∈ got.*1 \/ tcanc x = true;
    ti_buf : got.*2 = taken ++ tbuf x;
    ti_main : tcaller_at (tm x) taken (tby_caller h);
    ti_canc : tcanc x = true -> (exists i b, TRet i b false ∈ h) \/ exists a, tm x = TReturned a false /\ TFolded a false ∈ h;
    ti_ret : forall a ok, TReturn a ok ∈ h <-> tm x = TReturned a ok;
    ti_false : forall a, tm x = TReturned a false -> tcanc x = true;
  }.
  Lemma tinv_init : tinv [] tinit [] [].
  Proof. split; cbn; try done; try lia; try (by intros; constructor); try (by intros i r H; apply elem_of_nil in H).
    intros a ok. split; [by intros H; apply elem_of_nil in H|done].
  Qed.

  (** the steps a goroutine makes without touching channel and context *)
  Inductive tw : nat -> tworker T -> option (tev T) -> tworker T -> bool -> Prop :=
  | tw_pull i l a c : tw i (TAt l a) (Some (TPull i)) (TIn l a) c
  | tw_pulled i x l a c : tw i (TIn (x :: l) a) (Some (TPulled i (Some x))) (TGot x l a) c
  | tw_end i a c : tw i (TIn [] a) (Some (TPulled i None)) (TOut a) c
  | tw_select i x l a : tw i (TGot x l a) None (THave x l a) false
  | tw_quit i x l a : tw i (TGot x l a) None TDone true
  | tw_call i x l a c : tw i (THave x l a) (Some (TCall i a x)) (TBusy x l a) c
  | tw_ret i x l a b (ok : bool) c : tw i (TBusy x l a) (Some (TRet i b ok)) (if ok then TAt l b else TNo) c.
  Lemma tw_sits i a0 l0 es w e w' c : tsits i a0 l0 es w -> tw i w e w' c -> tsits i a0 l0 (es ++ option_list e) w'.
  Proof.
    intros S St. destruct St; cbn [tsits] in S |- *; try match goal with |- context [option_list (Some ?e)] => change (option_list (Some e)) with [e] end;
      try change (option_list None) with ([] : list (tev T)).
    - by exists es.
    - destruct S as (es' & G & ->). exists es'. split; [done|]. by rewrite <- app_assoc.
    - destruct S as (es' & G & ->). rewrite <- app_assoc. by apply tgone_end.
    - by rewrite app_nil_r.
    - rewrite app_nil_r. destruct S as (es' & G & ->). eapply tgone_runs; [done|constructor].
    - destruct S as (es' & G & ->). exists es'. split; [done|]. by rewrite <- app_assoc.
    - destruct S as (es' & G & ->). rewrite <- app_assoc. destruct ok; cbn [tsits app].
      + by apply tgone_snoc.
      + split; [eapply tgone_runs; [done|constructor]|]. exists b. apply elem_of_app. right. do 3 (apply elem_of_cons; right). by apply elem_of_list_singleton.
  Qed.
  Lemma tw_owner i w e w' c : tw i w (Some e) w' c -> towner e = Some i.
  Proof. by inversion 1. Qed.
  Lemma tw_by_caller i w e w' c h : tw i w e w' c -> tby_caller (h ++ option_list e) = tby_caller h.
  Proof. intros St. unfold tby_caller. rewrite filter_app. destruct St; cbn; by rewrite app_nil_r. Qed.
  Lemma tw_return i w e w' c a ok h : tw i w e w' c -> TReturn a ok ∈ h ++ option_list e <-> TReturn a ok ∈ h.
  Proof.
    intros St. rewrite elem_of_app. split; [|by left]. intros [?|H]; [done|].
    destruct e as [e|]; [|by apply elem_of_nil in H]. apply elem_of_list_singleton in H. subst e. by apply tw_owner in St.
  Qed.
  (** all steps are those, or one of these *)
  Lemma tinv_work h m ws b c got taken i w e w' :
    tinv h (TState m ws b c) got taken -> ws !! i = Some w -> tw i w e w' c -> tinv (h ++ option_list e) (TState m (<[i := w']> ws) b c) got taken.
  Proof.
    intros [Il Is In Iw Id Ig Idn Ib Im Ic Ir If] H St. cbn [tm tws tbuf tcanc] in *. pose proof (lookup_lt_Some _ _ _ H) as Li.
    assert (Ow : forall j, j <> i -> town j (h ++ option_list e) = town j h).
    { intros j N. rewrite town_app. destruct e as [e|]; [|by rewrite app_nil_r]. change (option_list (Some e)) with [e]. rewrite town_other; [by rewrite app_nil_r|]. rewrite (tw_owner _ _ _ _ _ St). congruence. }
    assert (Ow' : town i (h ++ option_list e) = town i h ++ option_list e).
    { rewrite town_app. f_equal. destruct e as [e|]; [|done]. apply town_same. by eapply tw_owner. }
    assert (Nd : forall j r, (j, r) ∈ got -> j <> i). { intros j r Hj ->. destruct (Ig _ _ Hj) as [E _]. rewrite H in E. injection E as ->. inversion St. }
    split; cbn [tm tws tbuf tcanc]; try done.
    - by rewrite insert_length.
    - intros j Hj. assert (ws !! j = None) as Hj'. { apply lookup_ge_None. apply lookup_ge_None in Hj. by rewrite insert_length in Hj. }
      rewrite Ow; [by apply In|]. intros ->. congruence.
    - intros j w1 Hj. destruct (decide (i = j)) as [<-|N].
      + rewrite list_lookup_insert in Hj by done. injection Hj as <-. destruct (Iw i w H) as (l & A & B). exists l. split; [done|]. rewrite Ow'. by eapply tw_sits.
      + rewrite list_lookup_insert_ne in Hj by done. rewrite Ow by done. by apply Iw.
    - intros j r Hj. pose proof (Nd _ _ Hj) as N. rewrite list_lookup_insert_ne by done. rewrite Ow by done. by apply Ig.
    - intros j Hj. destruct (decide (i = j)) as [<-|N]; [|rewrite list_lookup_insert_ne in Hj by done; by apply Idn].
      rewrite list_lookup_insert in Hj by done. injection Hj as ->. right. inversion St; try done. by destruct ok.
    - by rewrite (tw_by_caller _ _ _ _ _ _ St).
    - intros Hc. destruct (Ic Hc) as [(j & b' & Hj)|(a & M & Ha)]; [left; exists j, b'|right; exists a; split; [done|]]; apply elem_of_app; by left.
    - intros a ok. by rewrite (tw_return _ _ _ _ _ _ _ _ St).
  Qed.
  Lemma tinv_step h x got taken e y : tinv h x got taken -> stp x e y ->
    exists got' taken', tinv (h ++ option_list e) y got' taken'.
  Proof.
    intros I0 St. pose proof I0 as I. destruct I as [Il Is In Iw Id Ig Idn Ib Im Ic Ir If].
    destruct St; cbn [tm tws tbuf tcanc] in *; try change (option_list None) with ([] : list (tev T)); try match goal with |- context [option_list (Some ?e)] => change (option_list (Some e)) with [e] end.
    - (* spawn *) cbn [tstarted] in *. exists got, taken. rewrite app_nil_r. pose proof (lookup_lt_Some _ _ _ H) as L.
      split; cbn [tm tws tbuf tcanc tstarted]; try done.
      + rewrite app_length. cbn. lia.
      + lia.
      + intros i Hi. apply In. apply lookup_ge_None in Hi. rewrite app_length in Hi. apply lookup_ge_None. lia.
      + intros i w Hi. apply lookup_app_Some in Hi as [Hi|(Li & Hi)]; [by apply Iw|].
        destruct (i - length ws) eqn:D; [|done]. injection Hi as <-. assert (i = k) as -> by lia. exists l. split; [done|]. rewrite In by (apply lookup_ge_None; lia). constructor.
      + intros i r Hi. destruct (Ig i r Hi) as (A & l' & B & C). split; [by apply lookup_app_l_Some|by exists l'].
      + intros i Hi. apply lookup_app_Some in Hi as [Hi|(Li & Hi)]; [by apply Idn|]. by destruct (i - length ws).
      + intros Hc. destruct (Ic Hc) as [?|(a & M & _)]; [by left|done].
      + intros a ok. rewrite Ir. done.
    - (* spawned *) cbn [tstarted] in *. exists got, taken. rewrite app_nil_r. apply lookup_ge_None in H.
      split; cbn [tm tws tbuf tcanc tstarted]; try done.
      + lia.
      + destruct Im as [-> ->]. cbn. splits; [done|constructor|lia].
      + intros Hc. destruct (Ic Hc) as [?|(a & M & _)]; [by left|done].
      + intros a ok. rewrite Ir. done.
    - (* recv *) cbn [tstarted tcaller_at] in *. destruct Im as (E1 & E2 & E3). exists got, (taken ++ [r]).
      assert (Ow : forall j, town j (h ++ [TFold a r]) = town j h) by (intros j; rewrite town_app, town_other, app_nil_r; done).
      split; cbn [tm tws tbuf tcanc tstarted]; try done; try (intros; rewrite Ow; by auto).
      + by rewrite <- app_assoc.
      + cbn [tcaller_at]. exists taken, (tby_caller h). unfold tby_caller. rewrite filter_app. splits; try done. lia.
      + intros Hc. destruct (Ic Hc) as [(j & b' & ?)|(a' & M & _)]; [|done]. left. exists j, b'. apply elem_of_app. by left.
      + intros a' ok. rewrite elem_of_app, elem_of_list_singleton, Ir. split; [by intros [?|?]|done].
    - (* folded *) cbn [tstarted tcaller_at] in *. destruct Im as (ts & es' & -> & E1 & E2 & E3 & E4). exists got, (ts ++ [r]).
      assert (Ow : forall j, town j (h ++ [TFolded a' ok]) = town j h) by (intros j; rewrite town_app, town_other, app_nil_r; done).
      assert (Eb : tby_caller (h ++ [TFolded a' ok]) = tby_caller h ++ [TFolded a' ok]) by (unfold tby_caller; by rewrite filter_app).
      split; cbn [tm tws tbuf tcanc]; try done; try (intros; rewrite Ow; by auto).
      + by destruct ok.
      + by destruct ok.
      + rewrite Eb, E1, <- app_assoc. destruct ok; cbn [tcaller_at].
        * splits; [rewrite app_length; cbn; lia| |lia]. by apply tfolds_snoc.
        * apply elem_of_app. right. apply elem_of_cons. right. by apply elem_of_list_singleton.
      + intros Hc. destruct (Ic Hc) as [(j & b' & ?)|(a'' & M & _)]; [|done]. left. exists j, b'. apply elem_of_app. by left.
      + intros a'' ok'. rewrite elem_of_app, elem_of_list_singleton, Ir. split; [by intros [?|?]|by destruct ok].
      + by destruct ok.
    - (* refused *) cbn [tstarted tcaller_at] in *. exists got, taken.
      assert (Ow : forall j, town j (h ++ [TReturn a false]) = town j h) by (intros j; rewrite town_app, town_other, app_nil_r; done).
      split; cbn [tm tws tbuf tcanc tstarted]; try done; try (intros; rewrite Ow; by auto).
      + by right.
      + intros _. right. exists a. split; [done|]. apply elem_of_app. left. by apply elem_of_list_filter in Im as [_ ?].
      + intros a' ok. rewrite elem_of_app, elem_of_list_singleton, Ir. split; [intros [?|[= -> ->]]; done|]. intros [= -> <-]. by right.
    - (* cancelled *) cbn [tstarted tcaller_at] in *. exists got, taken.
      assert (Ow : forall j, town j (h ++ [TReturn v false]) = town j h) by (intros j; rewrite town_app, town_other, app_nil_r; done).
      split; cbn [tm tws tbuf tcanc tstarted]; try done; try (intros; rewrite Ow; by auto).
      + intros _. destruct (Ic eq_refl) as [(j & b' & ?)|(a'' & M & _)]; [|done]. left. exists j, b'. apply elem_of_app. by left.
      + intros a' ok. rewrite elem_of_app, elem_of_list_singleton, Ir. split; [intros [?|[= -> ->]]; done|]. intros [= -> <-]. by right.
    - (* return *) cbn [tstarted tcaller_at] in *. destruct Im as (E1 & E2 & E3). exists got, taken.
      assert (Ow : forall j, town j (h ++ [TReturn a true]) = town j h) by (intros j; rewrite town_app, town_other, app_nil_r; done).
      split; cbn [tm tws tbuf tcanc tstarted]; try done; try (intros; rewrite Ow; by auto).
      + cbn [tcaller_at]. split; [done|]. unfold tby_caller. rewrite filter_app. cbn. by rewrite app_nil_r.
      + intros Hc. destruct (Ic Hc) as [(j & b' & ?)|(a'' & M & _)]; [|done]. left. exists j, b'. apply elem_of_app. by left.
      + intros a' ok. rewrite elem_of_app, elem_of_list_singleton, Ir. split; [intros [?|[= -> ->]]; done|]. intros [= -> <-]. by right.
    - exists got, taken. by eapply (tinv_work _ _ _ _ _ _ _ _ _ (Some _)); [done|done|constructor].
    - exists got, taken. by eapply (tinv_work _ _ _ _ _ _ _ _ _ (Some _)); [done|done|constructor].
    - exists got, taken. by eapply (tinv_work _ _ _ _ _ _ _ _ _ (Some _)); [done|done|constructor].
    - exists got, taken. by eapply (tinv_work _ _ _ _ _ _ _ _ _ None); [done|done|constructor].
    - exists got, taken. by eapply (tinv_work _ _ _ _ _ _ _ _ _ None); [done|done|constructor].
    - exists got, taken. by eapply (tinv_work _ _ _ _ _ _ _ _ _ (Some _)); [done|done|constructor].
    - exists got, taken. by eapply (tinv_work _ _ _ _ _ _ _ _ _ (Some _)); [done|done|constructor].
    - (* cancel *) exists got, taken. rewrite app_nil_r. pose proof (lookup_lt_Some _ _ _ H) as Li. destruct (Iw i _ H) as (l & A & B & b' & C).
      split; cbn [tm tws tbuf tcanc tstarted]; try done.
      + by rewrite insert_length.
      + intros j Hj. apply In. apply lookup_ge_None. apply lookup_ge_None in Hj. by rewrite insert_length in Hj.
      + intros j w1 Hj. destruct (decide (i = j)) as [<-|N].
        * rewrite list_lookup_insert in Hj by done. injection Hj as <-. by exists l.
        * rewrite list_lookup_insert_ne in Hj by done. by apply Iw.
      + intros j r Hj. assert (i <> j). { intros <-. destruct (Ig _ _ Hj) as [E _]. congruence. } rewrite list_lookup_insert_ne by done. by apply Ig.
      + by right.
      + intros _. left. exists i, b'. by eapply town_in.
    - (* send *) exists (got ++ [(i, a)]), taken. rewrite app_nil_r. destruct (Iw i _ H) as (l & A & B). cbn [tsits] in B.
      assert (Nd : i ∉ got.*1). { intros Hi. apply elem_of_list_fmap in Hi as ([j r] & E & Hj). cbn in E. subst j. destruct (Ig _ _ Hj) as [E _]. congruence. }
      pose proof (lookup_lt_Some _ _ _ H) as Li.
      split; cbn [tm tws tbuf tcanc tstarted]; try done.
      + by rewrite insert_length.
      + intros j Hj. apply In. apply lookup_ge_None. apply lookup_ge_None in Hj. by rewrite insert_length in Hj.
      + intros j w1 Hj. destruct (decide (i = j)) as [<-|N].
        * rewrite list_lookup_insert in Hj by done. injection Hj as <-. exists l. split; [done|]. by eapply tcompletes_runs.
        * rewrite list_lookup_insert_ne in Hj by done. by apply Iw.
      + rewrite fmap_app. cbn. apply NoDup_app. splits; [done| |apply NoDup_singleton]. intros j Hj. by intros ->%elem_of_list_singleton.
      + intros j r Hj. apply elem_of_app in Hj as [Hj|Hj%elem_of_list_singleton].
        * assert (i <> j) by (intros ->; apply Nd, elem_of_list_fmap; by exists (j, r)). rewrite list_lookup_insert_ne by done. by apply Ig.
        * injection Hj as -> ->. rewrite list_lookup_insert by done. split; [done|]. by exists l.
      + intros j Hj. rewrite fmap_app, elem_of_app. destruct (decide (i = j)) as [<-|N]; [left; right; by apply elem_of_list_singleton|].
        rewrite list_lookup_insert_ne in Hj by done. destruct (Idn _ Hj) as [?|?]; [left; by left|by right].
      + rewrite fmap_app, Ib. cbn. by rewrite app_assoc.
  Qed.
  Lemma tinv_exec h x : exec stp tinit h x -> exists got taken, tinv h x got taken.
  Proof.
    intros E. remember tinit as x0 eqn:E0. induction E as [c|c c1 h c2 E IH St|c c1 h e c2 E IH St]; subst c.
    - exists [], []. apply tinv_init.
    - destruct (IH eq_refl) as (got & taken & I). destruct (tinv_step _ _ _ _ _ _ I St) as (got' & taken' & I'). cbn in I'. rewrite app_nil_r in I'. by exists got', taken'.
    - destruct (IH eq_refl) as (got & taken & I). destruct (tinv_step _ _ _ _ _ _ I St) as (got' & taken' & I'). by exists got', taken'.
  Qed.
  Lemma tinv_lt h x got taken : tinv h x got taken -> forall i, i ∈ got.*1 -> i < length segs.
  Proof.
    intros I i Hi. apply elem_of_list_fmap in Hi as ([j r] & -> & Hj). destruct (ti_got _ _ _ _ I _ _ Hj) as (_ & l & E & _). by eapply lookup_lt_Some.
  Qed.
  Lemma tgot_length h x got taken : tinv h x got taken -> length got = length taken + length (tbuf x).
  Proof. intros I. rewrite <- (fmap_length snd got), (ti_buf _ _ _ _ I), app_length. done. Qed.
  Lemma tinv_most h x got taken : tinv h x got taken -> length got <= length segs.
  Proof.
    intros I. assert (got.*1 ⊆ seq 0 (length segs)) as Sub. { intros j Hj. apply elem_of_seq. pose proof (tinv_lt _ _ _ _ I _ Hj). lia. }
    pose proof (submseteq_length _ _ (NoDup_submseteq _ _ (ti_nodup _ _ _ _ I) Sub)) as L1. by rewrite seq_length, fmap_length in L1.
  Qed.
  Lemma tinv_through h x got taken : tinv h x got taken -> length got = length segs -> got.*1 ≡ₚ seq 0 (length segs).
  Proof.
    intros I L. apply submseteq_Permutation_length_le; [by rewrite seq_length, fmap_length; lia|].
    apply NoDup_submseteq; [apply (ti_nodup _ _ _ _ I)|]. intros j Hj. apply elem_of_seq. pose proof (tinv_lt _ _ _ _ I _ Hj). lia.
  Qed.
  Lemma t_all_done h x got taken a : tinv h x got taken -> tm x = TReturned a true -> length segs = p ->
    (forall i w, tws x !! i = Some w -> w = TDone) /\ tbuf x = [] /\ got.*1 ≡ₚ seq 0 p /\ tfolds init got.*2 (tby_caller h) a.
  Proof.
    intros I M L. pose proof (ti_main _ _ _ _ I) as Mn. rewrite M in Mn. destruct Mn as [Lt C].
    pose proof (tinv_most _ _ _ _ I). pose proof (tgot_length _ _ _ _ I) as Lg'. assert (tbuf x = []) as Eb by (apply nil_length_inv; lia).
    assert (Pm : got.*1 ≡ₚ seq 0 p). { rewrite <- L. apply (tinv_through _ _ _ _ I). lia. } splits.
    - intros i w Hi. destruct (ti_some _ _ _ _ I _ _ Hi) as (l & El & _). apply lookup_lt_Some in El.
      assert (i ∈ got.*1) as Hg by (rewrite Pm; apply elem_of_seq; lia). apply elem_of_list_fmap in Hg as ([j r] & -> & Hj). destruct (ti_got _ _ _ _ I _ _ Hj) as (E & _). cbn in Hi. congruence.
    - done.
    - done.
    - rewrite (ti_buf _ _ _ _ I), Eb, app_nil_r. done.
  Qed.
  Lemma t_no_step x e y : (forall i w, tws x !! i = Some w -> w = TDone) -> (exists a ok, tm x = TReturned a ok) -> ~ stp x e y.
  Proof.
    intros D (a & ok & M) St. destruct St; cbn [tm tws] in *; try done; match goal with H : _ !! _ = Some _ |- _ => by specialize (D _ _ H) end.
  Qed.

  (** ** After the fold is given up *)
  Definition more_calls (o : option (tworker T)) : nat := match o with Some (THave _ _ _) => 1 | _ => 0 end.
  Definition more_pulls (o : option (tworker T)) : nat := match o with Some (TAt _ _) | Some (THave _ _ _) | Some (TBusy _ _ _) => 1 | _ => 0 end.
  Lemma count_app (f : tev T -> bool) h h' : count f (h ++ h') = count f h + count f h'.
  Proof. unfold count. by rewrite List.filter_app, app_length. Qed.
  Lemma given_up_step i x e y a ok : tm x = TReturned a ok -> tcanc x = true -> stp x e y ->
    tm y = tm x /\ tcanc y = true /\
    count (begins_call i) (option_list e) + more_calls (tws y !! i) <= more_calls (tws x !! i) /\
    count (begins_pull i) (option_list e) + more_pulls (tws y !! i) <= more_pulls (tws x !! i).
  Proof.
    intros M C St. destruct St; cbn [tm tws tcanc] in *; try done; (split; [done|split; [done|]]);
      (destruct (decide (i0 = i)) as [->|N]; [rewrite list_lookup_insert by (by eapply lookup_lt_Some)|rewrite list_lookup_insert_ne by done]);
      try rewrite H; unfold count; cbn [option_list List.filter begins_call begins_pull];
      cbn; rewrite ?(Nat.eqb_refl i); try rewrite (proj2 (Nat.eqb_neq i0 i) N); cbn; try (split; lia).
    match goal with |- context [if ?b then _ else _] => destruct b end; cbn; split; lia.
  Qed.
  Lemma given_up i x h y a ok : tm x = TReturned a ok -> tcanc x = true -> exec stp x h y ->
    tm y = tm x /\ tcanc y = true /\
    count (begins_call i) h + more_calls (tws y !! i) <= more_calls (tws x !! i) /\ count (begins_pull i) h + more_pulls (tws y !! i) <= more_pulls (tws x !! i).
  Proof.
    intros M C E. induction E as [c|c c1 h c2 E IH St|c c1 h e c2 E IH St]; [done|..].
    - destruct (IH M C) as (M1 & C1 & A & B). rewrite M in M1. destruct (given_up_step i _ _ _ _ _ M1 C1 St) as (M2 & C2 & A2 & B2). change (count (begins_call i) (option_list None)) with 0 in A2. change (count (begins_pull i) (option_list None)) with 0 in B2. splits; [congruence|done|lia|lia].
    - destruct (IH M C) as (M1 & C1 & A & B). rewrite M in M1. destruct (given_up_step i _ _ _ _ _ M1 C1 St) as (M2 & C2 & A2 & B2). match type of St with tstep _ _ _ _ _ (Some ?e) _ => change (option_list (Some e)) with [e] in A2, B2 end. rewrite !count_app. splits; [congruence|done|lia|lia].
  Qed.

  (** ** Every execution ends *)
  Definition tmain_mu (m : tmain T) : nat :=
    match m with
    | TSpawn k => 2 + sum_list ((fun l => 5 * length l + 6) <$> drop k segs)
    | TRecv _ _ _ => 1 | TFolding _ _ _ => 2 | TRefused _ => 1 | TReturned _ _ => 0
    end.
  Definition tmeas (x : tstate T) : nat := tmain_mu (tm x) + sum_list (tmu <$> tws x) + 2 * length (tbuf x).
  Lemma tmeas_step x e y : stp x e y -> tmeas y < tmeas x.
  Proof.
    intros St. destruct St; unfold tmeas; cbn [tm tws tbuf tmain_mu];
      try match goal with H : ?ws !! ?i = Some ?w |- context [<[?i := ?w']> ?ws] => pose proof (any_sum tmu ws i w w' H) as E; cbn [tmu] in E end; try (cbn in *; lia).
    - rewrite (drop_S segs l k) by done. rewrite snoc_sum. cbn. replace (k + 1) with (S k) by lia. lia.
    - destruct ok; cbn; lia.
    - destruct ok; cbn [tmu] in E; lia.
    - rewrite app_length. cbn. lia.
  Qed.
  Lemma t_bound : exists bound, forall n x, nsteps (fun a b => exists e, stp a e b) n tinit x -> n <= bound.
  Proof.
    exists (tmeas tinit). assert (forall n x y, nsteps (fun a b => exists e, stp a e b) n x y -> n + tmeas y <= tmeas x) as H.
    { intros n x y S. induction S as [|n x y z [e St] S IH]; [lia|]. apply tmeas_step in St. lia. }
    intros n x S. apply H in S. lia.
  Qed.
  Lemma t_goes_on x i w : tws x !! i = Some w -> w <> TDone -> (forall a, w = TOut a -> length (tbuf x) < p) ->
    exists e w' y, stp x e y /\ tws y = <[i := w']> (tws x) /\ tm y = tm x.
  Proof.
    destruct x as [m ws b c]. cbn [tws tm tbuf]. intros Hi N B.
    destruct w as [l a|[|x l] a|x l a|x l a|x l a| |a|]; [..|done].
    - eexists _, _, _. split; [by eapply t_pull|done].
    - eexists _, _, _. split; [by eapply t_end|done].
    - eexists _, _, _. split; [by eapply t_pulled|done].
    - destruct c; eexists _, _, _; [split; [by eapply t_quit|done]|split; [by eapply t_select|done]].
    - eexists _, _, _. split; [by eapply t_call|done].
    - exists (Some (TRet i a true)), (TAt l a). eexists. split; [exact (t_ret zero p segs init m ws b c i x l a a true Hi)|done].
    - eexists _, _, _. split; [by eapply t_cancel|done].
    - eexists _, _, _. split; [eapply t_send; [done|by eapply B]|done].
  Qed.
  Lemma t_progress h x : 1 <= p -> p <= length segs -> exec stp tinit h x -> (exists a ok, tm x = TReturned a ok) \/ exists e y, stp x e y.
  Proof.
    intros P L E. destruct (tinv_exec _ _ E) as (got & taken & I). destruct x as [m ws b c]. cbn [tm] in *.
    destruct m as [k|n a v|n a r|a|a ok]; [right|right|right|right|left; by exists a, ok].
    - destruct (segs !! k) as [l|] eqn:Ek; eexists _, _; [by apply t_spawn|by apply t_spawned].
    - destruct (decide (n = p)) as [->|Np]; [eexists _, _; apply t_return|]. destruct b as [|r b]; [|eexists _, _; by apply t_recv].
      pose proof (ti_main _ _ _ _ I) as (M1 & M2 & M3). pose proof (tgot_length _ _ _ _ I) as Lg. cbn [tbuf length] in Lg.
      destruct c; [eexists _, _; by apply t_cancelled|].
      assert (exists i w, ws !! i = Some w /\ w <> TDone) as (i & w & Hi & N).
      { destruct (decide (Forall (fun w => Is_true (match w with TDone => true | _ => false end)) ws)) as [F|F].
        - exfalso. assert (seq 0 (length segs) ⊆+ got.*1) as Sub.
          { apply NoDup_submseteq; [apply NoDup_seq|]. intros j Hj. apply elem_of_seq in Hj.
            pose proof (ti_len _ _ _ _ I) as Lw. cbn in Lw. destruct (lookup_lt_is_Some_2 ws j ltac:(lia)) as [w Hw]. pose proof (Forall_lookup_1 _ _ _ _ F Hw) as Fw. destruct w; try done.
            by destruct (ti_done _ _ _ _ I _ Hw). }
          apply submseteq_length in Sub. rewrite seq_length, fmap_length in Sub. lia.
        - apply not_Forall_Exists in F; [|apply _]. apply Exists_exists in F as (w & Hw & N). apply elem_of_list_lookup in Hw as [i Hi]. exists i, w. split; [done|]. intros ->. by apply N. }
      destruct (t_goes_on (TState (TRecv n a v) ws [] false) _ _ Hi N) as (e & w' & y & St & _); [cbn; lia|]. by exists e, y.
    - eexists (Some (TFolded a true)), _. apply t_folded.
    - eexists _, _. apply t_refused.
  Qed.
End tryfold.

(** the value returned with false *)
Section answers.
  Context {T : Type} (zero : T) (p : nat) (segs : list (list T)) (init : T).
  Definition says (h : list (tev T)) (m : tmain T) : Prop :=
    match m with
    | TSpawn _ => received h = []
    | TRecv _ _ v => v = default zero (last (received h))
    | TFolding _ _ r => last (received h) = Some r
    | TRefused a => TFolded a false ∈ h
    | TReturned v false => (exists i b, TRet i b false ∈ h) /\ v = default zero (last (received h)) \/ TFolded v false ∈ h
    | TReturned _ true => True
    end.
  Lemma says_mono h e m : (forall a r, e <> TFold a r) -> says h m -> says (h ++ [e]) m.
  Proof.
    intros N. assert (Er : received (h ++ [e]) = received h).
    { unfold received. rewrite omap_app. destruct e; cbn; try (by rewrite app_nil_r). by destruct (N a r). }
    destruct m as [k|n a v|n a r|a|v []]; cbn; rewrite ?Er; try done.
    - intros H. apply elem_of_app. by left.
    - intros [[(i & b & H) Ev]|H]; [left; split; [|done]; exists i, b|right]; apply elem_of_app; by left.
  Qed.
  Lemma says_exec h x : exec (tstep zero p segs init) tinit h x -> says h (tm x).
  Proof.
    intros E. remember tinit as x0 eqn:E0. induction E as [c|c c1 h c2 E IH St|c c1 h e c2 E IH St].
    - by subst.
    - specialize (IH E0). subst c. inversion St; subst; cbn [tm] in *; try done. cbn in IH. cbn. by rewrite IH.
    - specialize (IH E0). subst c. inversion St; subst; cbn [tm] in *; try (by apply says_mono).
      + cbn. unfold received. rewrite omap_app. cbn. by rewrite last_snoc.
      + cbn in IH. destruct ok; cbn.
        * unfold received in *. rewrite omap_app. cbn. rewrite app_nil_r, IH. done.
        * apply elem_of_app. right. by apply elem_of_list_singleton.
      + cbn in IH. cbn. right. apply elem_of_app. by left.
      + apply says_mono; [done|]. cbn in IH. cbn. left. split; [|done].
        destruct (tinv_exec zero p segs init _ _ E) as (got & taken & I). destruct (ti_canc _ _ _ _ _ _ _ I eq_refl) as [?|(a0 & M & _)]; [done|done].
  Qed.
  Lemma answers h x : exec (tstep zero p segs init) tinit h x -> forall v, tm x = TReturned v false ->
    (exists i b, TRet i b false ∈ h) /\ v = default zero (last (received h)) \/ TFolded v false ∈ h.
  Proof. intros E v M. apply says_exec in E. by rewrite M in E. Qed.
End answers.
