(** Lock-free skip list with a panicking comparator: every run is, names apart,
    a run in which some goroutines stop in the middle of a call. *)
From stdpp Require Import functions.
From Verif Require Import Base Lin_Spec Lin_Proofs Lin_Hindsight LockFree_Model LockFree_Spec LockFree_Proofs LockFree_Proofs2 LockFree_Proofs3 LockFree_Proofs4 LockFree_Proofs5 LockFree_Proofs6 LockFree_Proofs7 LockFree_Proofs8 LockFree_Proofs9 LockFree_Proofs10 LockFree_Proofs11.
From Verif Require Import LFPanic_Model LFPanic_Spec.

Section ren.
  Context {T : Type}.
  Notation pevent := (pevent T).
  Fixpoint bump (c : nat -> nat) (h : list pevent) : nat -> nat :=
    match h with
    | [] => c
    | Did _ :: h => bump c h
    | Abandoned t :: h => bump (<[t := S (c t)]> c) h
    end.
  Lemma renamed_app n h1 h2 : forall c, renamed n c (h1 ++ h2) = renamed n c h1 ++ renamed n (bump c h1) h2.
  Proof. induction h1 as [|[[t o|t r]|t] h1 IH]; intros c; cbn; [done|by rewrite IH..]. Qed.
  Lemma gone_app n h1 h2 : forall c, gone n c (h1 ++ h2) = gone n c h1 ++ gone n (bump c h1) h2.
  Proof. induction h1 as [|[[t o|t r]|t] h1 IH]; intros c; cbn; [done|by rewrite IH..]. Qed.
  Lemma bump_app h1 h2 : forall c, bump c (h1 ++ h2) = bump (bump c h1) h2.
  Proof. induction h1 as [|[[t o|t r]|t] h1 IH]; intros c; cbn; [done|by rewrite IH..]. Qed.
  Lemma name_inj n t i u j : t < n -> u < n -> t + n * i = u + n * j -> t = u /\ i = j.
  Proof.
    intros Lt Lu E. assert (i = j) as ->.
    { destruct (decide (i < j)) as [L|]; [|destruct (decide (j < i)) as [L|]; [|lia]]; exfalso.
      - assert (n * S i <= n * j) by (apply Nat.mul_le_mono_l; lia). lia.
      - assert (n * S j <= n * i) by (apply Nat.mul_le_mono_l; lia). lia. }
    split; [lia|done].
  Qed.
End ren.

Section ends.
  Context {Op Ret St : Type} (legal : St -> Op -> Ret -> St -> Prop).
  Context {C : Type} (step : C -> option (event Op Ret) -> C -> Prop).
  Context (R : C -> St -> (nat -> phase (Op := Op) (Ret := Ret)) -> (nat -> list St) -> Prop).
  (** the marks end in the phases of the goroutines *)
  Lemma hindsight_ends c0 s0 past0 :
    R c0 s0 (fun _ => Idle) past0 ->
    (forall c e c' s ph past, R c s ph past -> step c e c' ->
       exists s' ph' past', haction legal s ph past e s' ph' past' /\ R c' s' ph' past') ->
    forall h c, exec step c0 h c -> exists ms s ph past, linearizes legal s0 h ms s /\ R c s ph past /\
      forall t, ends t (filter (fun m => thread_of m = t) ms) (ph t).
  Proof.
    intros H0 Hstep h c E.
    assert (exists l s ph past, lmarked legal s0 l s ph past /\ history (l.*1) = h /\ R c s ph past) as (l & s & ph & past & Hm & Hh & HR).
    { induction E as [c|c c1 h c2 E IH Hs|c c1 h e c2 E IH Hs].
      - exists [], s0, (fun _ => Idle), past0. split; [apply lmarked_nil|done].
      - destruct IH as (l & s & ph & past & Hm & Hh & HR); [done|].
        destruct (Hstep _ _ _ _ _ _ HR Hs) as (s' & ph' & past' & A & HR').
        destruct (lmarked_step _ _ _ _ _ _ _ _ _ _ Hm A) as (l' & Hm' & Hh'). exists l', s', ph', past'. splits; [done| |done].
        rewrite Hh', Hh. cbn. by rewrite app_nil_r.
      - destruct IH as (l & s & ph & past & Hm & Hh & HR); [done|].
        destruct (Hstep _ _ _ _ _ _ HR Hs) as (s' & ph' & past' & A & HR').
        destruct (lmarked_step _ _ _ _ _ _ _ _ _ _ Hm A) as (l' & Hm' & Hh'). exists l', s', ph', past'. splits; [done| |done].
        by rewrite Hh', Hh. }
    destruct Hm as (He & Hr & Hs & _). exists (l.*1), s, ph, past. splits; [|done|done]. unfold linearizes. splits; [done| |].
    - intros t. eapply ends_ok, He.
    - rewrite <-Hs. by apply run_ok_legal.
  Qed.
  Lemma ends_last t (ms : list (mark Op Ret)) ph : ends t ms ph ->
    match ph with
    | Idle => forall o r, last ms <> Some (Eff t o r)
    | Pending o => last ms = Some (Ev (Call t o))
    | Effected o r => last ms = Some (Eff t o r)
    end.
  Proof.
    induction 1 as [|o|o r|o r ms ph E IH]; [done|done|done|]. destruct ms as [|m ms].
    - inversion E; subst. done.
    - destruct ph; cbn in *; exact IH.
  Qed.
End ends.

Section lf.
  Context {T : Type} (zero : T) (comp : T -> T -> Z) (H : cmp_ok comp).
  Notation R := (R zero comp).
  Notation step := (step comp).
  Notation pstep := (pstep comp).
  Notation legal := (set_legal zero comp).

  Lemma reach_ends n h x : exec step (sys_init zero n) h x -> exists ms s ph past, linearizes legal [] h ms s /\ R x s ph past /\
    forall t, ends t (filter (fun m => thread_of m = t) ms) (ph t).
  Proof. apply (hindsight_ends legal step R _ [] _ (init_R zero comp n)). intros c e c' s ph past. apply sim_step. done. Qed.

  Definition searching (p : pc T) : Prop := exists k v prevs succs l prev c, p = Find k v prevs succs (PCur l prev c).
  Definition owed_at (qs : list (pc T)) (u : nat) : Z := match qs !! u with Some p => owed p | None => 0%Z end.
  Definition sumz (f : nat -> Z) (l : list nat) : Z := foldr (fun u z => (f u + z)%Z) 0%Z l.
  Lemma sumz_app f a b : sumz f (a ++ b) = (sumz f a + sumz f b)%Z.
  Proof. induction a as [|x a IH]; cbn; [done|]. unfold sumz in *. rewrite IH. lia. Qed.
  Lemma sumz_ext f g l : (forall u, u ∈ l -> f u = g u) -> sumz f l = sumz g l.
  Proof. induction l as [|x l IH]; intros E; cbn; [done|]. unfold sumz in *. rewrite IH, (E x); [done|by left|]. intros u Hu. apply E. by right. Qed.

  (** [x]: the list with panics; [y]: the plain list with goroutines of many names *)
  Record SIM (n N : nat) (h : list (pevent T)) (x y : sys T) : Prop := {
    s_mem : shared y = shared x;
    s_len : length (pcs x) = n;
    s_lenN : length (pcs y) = N;
    s_cur : forall t p, pcs x !! t = Some p -> pcs y !! (t + n * bump afresh h t) = Some p;
    s_new : forall t i, t < n -> bump afresh h t < i -> t + n * i < N -> pcs y !! (t + n * i) = Some Quiet;
    s_gone : forall u, u ∈ gone n afresh h <-> exists t i, t < n /\ i < bump afresh h t /\ u = t + n * i;
    s_nodup : NoDup (gone n afresh h);
    s_inc : forall t, t < n -> bump afresh h t <= length (gone n afresh h);
    s_stuck : forall u, u ∈ gone n afresh h -> exists p, pcs y !! u = Some p /\ searching p;
    s_tot : total (pcs y) = (total (pcs x) + sumz (owed_at (pcs y)) (gone n afresh h))%Z;
  }.
  Lemma total_app (a b : list (pc T)) : total (a ++ b) = (total a + total b)%Z.
  Proof. induction a as [|p a IH]; cbn; [done|]. unfold total in *. rewrite IH. lia. Qed.
  Lemma total_quiets n : total (replicate n (Quiet : pc T)) = 0%Z.
  Proof. induction n as [|n IH]; cbn; [done|]. unfold total in *. rewrite IH. done. Qed.
  Lemma SIM_init n N : n <= N -> SIM n N [] (sys_init zero n) (sys_init zero N).
  Proof.
    intros L. constructor; cbn [sys_init shared pcs bump gone].
    - done.
    - by rewrite replicate_length.
    - by rewrite replicate_length.
    - intros t p Ep. unfold afresh. rewrite Nat.mul_0_r, Nat.add_0_r. apply lookup_replicate in Ep as [-> Lt]. apply lookup_replicate. split; [done|lia].
    - intros t i Lt _ Lu. by apply lookup_replicate.
    - intros u. split; [intros F; by apply elem_of_nil in F|]. intros (t & i & _ & F & _). unfold afresh in F. lia.
    - constructor.
    - intros t _. unfold afresh. lia.
    - intros u F. by apply elem_of_nil in F.
    - by rewrite !total_quiets.
  Qed.
  (** a step of goroutine [t] other than a panic *)
  Lemma SIM_upd n N h h' m ps qs m' t p p' : SIM n N h (Sys m ps) (Sys m qs) -> ps !! t = Some p ->
    bump afresh h' = bump afresh h -> gone n afresh h' = gone n afresh h ->
    SIM n N h' (Sys m' (<[t := p']> ps)) (Sys m' (<[t + n * bump afresh h t := p']> qs)).
  Proof.
    intros S Ep Eb Eg. set (u0 := t + n * bump afresh h t) in *.
    assert (Lt : t < n) by (rewrite <-(s_len _ _ _ _ _ S); by eapply lookup_lt_Some).
    pose proof (s_cur _ _ _ _ _ S _ _ Ep) as Eu. fold u0 in Eu. cbn [pcs] in Eu.
    assert (Ng : u0 ∉ gone n afresh h).
    { intros F. apply (s_gone _ _ _ _ _ S) in F as (t' & i & L' & Li & E). apply name_inj in E as [<- <-]; [lia|done|done]. }
    constructor; cbn [shared pcs]; rewrite ?Eb, ?Eg.
    - done.
    - rewrite insert_length. apply S.
    - rewrite insert_length. apply S.
    - intros t' q Eq. destruct (decide (t' = t)) as [->|N'].
      + rewrite list_lookup_insert in Eq by (by eapply lookup_lt_Some). fold u0. by rewrite list_lookup_insert by (by eapply lookup_lt_Some).
      + rewrite list_lookup_insert_ne in Eq by done. rewrite list_lookup_insert_ne; [by apply S|].
        intros F. assert (Lt' : t' < n) by (rewrite <-(s_len _ _ _ _ _ S); by eapply lookup_lt_Some). apply name_inj in F as [-> _]; done.
    - intros t' i Lt' Li Lu. rewrite list_lookup_insert_ne; [by apply S|]. intros F. apply name_inj in F as [-> <-]; [lia|done|done].
    - apply S.
    - apply S.
    - apply S.
    - intros u Hu. rewrite list_lookup_insert_ne by (by intros ->). by apply S.
    - rewrite !(total_insert _ _ p _) by done. pose proof (s_tot _ _ _ _ _ S) as F. cbn [pcs] in F. rewrite F.
      rewrite (sumz_ext (owed_at (<[u0:=p']> qs)) (owed_at qs)); [lia|]. intros u Hu. unfold owed_at. rewrite list_lookup_insert_ne by (by intros ->). done.
  Qed.
  Lemma SIM_panic n N h m ps qs t p : SIM n N h (Sys m ps) (Sys m qs) -> ps !! t = Some p -> searching p ->
    n * (2 + length (gone n afresh h)) <= N ->
    SIM n N (h ++ [Abandoned t]) (Sys m (<[t := Quiet]> ps)) (Sys m qs).
  Proof.
    intros S Ep Hp HN. assert (Lt : t < n) by (rewrite <-(s_len _ _ _ _ _ S); by eapply lookup_lt_Some).
    pose proof (s_cur _ _ _ _ _ S _ _ Ep) as Eu. cbn [pcs] in Eu. set (c := bump afresh h) in *.
    assert (Eb : bump afresh (h ++ [Abandoned t]) = <[t := Datatypes.S (c t)]> c) by (rewrite bump_app; done).
    assert (Eg : gone n afresh (h ++ [Abandoned t]) = gone n afresh h ++ [t + n * c t]) by (rewrite gone_app; done).
    assert (Ng : t + n * c t ∉ gone n afresh h).
    { intros F. apply (s_gone _ _ _ _ _ S) in F as (t' & i & L' & Li & E). apply name_inj in E as [<- <-]; [unfold c in Li; lia|done|done]. }
    assert (Ln : t + n * Datatypes.S (c t) < N).
    { assert (c t <= length (gone n afresh h)) by (by apply (s_inc _ _ _ _ _ S)).
      assert (n * (2 + c t) <= n * (2 + length (gone n afresh h))) by (apply Nat.mul_le_mono_l; lia). lia. }
    constructor; cbn [shared pcs]; rewrite ?Eb, ?Eg.
    - done.
    - rewrite insert_length. apply S.
    - apply S.
    - intros t' q Eq. destruct (decide (t' = t)) as [->|N'].
      + rewrite list_lookup_insert in Eq by (by eapply lookup_lt_Some). injection Eq as <-. rewrite fn_lookup_insert.
        apply (s_new _ _ _ _ _ S); [done|fold c; lia|done].
      + rewrite list_lookup_insert_ne in Eq by done. rewrite fn_lookup_insert_ne by done. by apply (s_cur _ _ _ _ _ S).
    - intros t' i Lt' Li Lu. apply (s_new _ _ _ _ _ S); [done| |done]. fold c. destruct (decide (t' = t)) as [->|N']; [rewrite fn_lookup_insert in Li; lia|by rewrite fn_lookup_insert_ne in Li].
    - intros u. rewrite elem_of_app, elem_of_list_singleton, (s_gone _ _ _ _ _ S u). fold c. split.
      + intros [(t' & i & L' & Li & ->)| ->].
        * exists t', i. splits; [done| |done]. destruct (decide (t' = t)) as [->|N']; [rewrite fn_lookup_insert; lia|by rewrite fn_lookup_insert_ne].
        * exists t, (c t). rewrite fn_lookup_insert. splits; [done|lia|done].
      + intros (t' & i & L' & Li & ->). destruct (decide (t' = t)) as [->|N'].
        * rewrite fn_lookup_insert in Li. destruct (decide (i = c t)) as [->|]; [by right|]. left. exists t, i. splits; [done|lia|done].
        * rewrite fn_lookup_insert_ne in Li by done. left. by exists t', i.
    - apply NoDup_app. splits; [apply S| |apply NoDup_singleton]. intros u Hu F. apply elem_of_list_singleton in F as ->. done.
    - intros t' L'. rewrite app_length. cbn [length]. pose proof (s_inc _ _ _ _ _ S t' L') as F. fold c in F.
      destruct (decide (t' = t)) as [->|N']; [rewrite fn_lookup_insert; lia|rewrite fn_lookup_insert_ne by done; lia].
    - intros u [Hu|Hu]%elem_of_app; [by apply (s_stuck _ _ _ _ _ S)|]. apply elem_of_list_singleton in Hu as ->. by exists p.
    - rewrite (total_insert _ _ p _) by done. rewrite sumz_app. cbn [sumz foldr]. unfold owed_at at 2. rewrite Eu.
      pose proof (s_tot _ _ _ _ _ S) as F. cbn [pcs] in F. rewrite F. cbn [owed]. lia.
  Qed.
  Lemma panic_sim n h x : exec pstep (sys_init zero n) h x -> forall N, n * S (length (gone n afresh h)) <= N ->
    exists y, exec step (sys_init zero N) (renamed n afresh h) y /\ SIM n N h x y.
  Proof.
    intros E. remember (sys_init zero n) as x0 eqn:E0. induction E as [c|c c1 h c2 E IH St|c c1 h e c2 E IH St]; intros N HN; subst c.
    - exists (sys_init zero N). split; [constructor|]. apply SIM_init. cbn in HN. lia.
    - destruct (IH eq_refl N HN) as (y & Ey & S). inversion St as [x' e y' St'|]; subst. destruct e as [e|]; [done|]. destruct y as [m' qs].
      inversion St' as [|m ps t p top m1 p' Ep Hr Ht Es|]; subst. pose proof (s_mem _ _ _ _ _ S) as Em. cbn in Em. subst m'.
      exists (Sys m1 (<[t + n * bump afresh h t := p']> qs)). split.
      + eapply exec_silent; [done|]. eapply s_silent; [|done|done|done]. by apply (s_cur _ _ _ _ _ S).
      + by eapply SIM_upd.
    - assert (HN' : n * Datatypes.S (length (gone n afresh h)) <= N).
      { etrans; [|done]. apply Nat.mul_le_mono_l. rewrite gone_app, app_length. lia. }
      destruct (IH eq_refl N HN') as (y & Ey & S). destruct y as [m' qs]. inversion St as [x' e' y' St'|m ps t p Ep Hc]; subst.
      + destruct e' as [e'|]; [|done]. match goal with H : _ <$> _ = _ |- _ => injection H as <- end. inversion St' as [m ps t o Ep| |m ps t r Ep]; subst; pose proof (s_mem _ _ _ _ _ S) as Em; cbn in Em; subst m'.
        * exists (Sys m (<[t + n * bump afresh h t := start o]> qs)). split.
          -- rewrite renamed_app. cbn [renamed]. eapply exec_event; [done|]. apply s_call. by apply (s_cur _ _ _ _ _ S).
          -- eapply SIM_upd; [done|done| |]; [by rewrite bump_app|]. rewrite gone_app. cbn. by rewrite app_nil_r.
        * exists (Sys m (<[t + n * bump afresh h t := Quiet]> qs)). split.
          -- rewrite renamed_app. cbn [renamed]. eapply exec_event; [done|]. apply s_return. by apply (s_cur _ _ _ _ _ S).
          -- eapply SIM_upd; [done|done| |]; [by rewrite bump_app|]. rewrite gone_app. cbn. by rewrite app_nil_r.
      + pose proof (s_mem _ _ _ _ _ S) as Em; cbn in Em; subst m'. exists (Sys m qs). split.
        * rewrite renamed_app. cbn [renamed]. rewrite app_nil_r. done.
        * eapply SIM_panic; [done|done| |].
          -- destruct Hc as (k & v & prevs & succs & l & prev & c & nd & nx & -> & _). by repeat eexists.
          -- rewrite gone_app, app_length in HN. cbn in HN. etrans; [|exact HN]. apply Nat.mul_le_mono_l. lia.
  Qed.

  (** ** What follows *)
  Lemma stored_same (x y : sys T) s : shared y = shared x -> stored y s -> stored x s.
  Proof. intros E. unfold stored. by rewrite E. Qed.
  Lemma panic_reach n h x : exec pstep (sys_init zero n) h x ->
    exists N y ms s ph past, exec step (sys_init zero N) (renamed n afresh h) y /\ SIM n N h x y /\
      linearizes legal [] (renamed n afresh h) ms s /\ R y s ph past /\ stored x s /\
      (forall u o r, u ∈ gone n afresh h -> last_mark u ms = Some (Eff u o r) -> exists v, o = Add v /\ r = RBool true) /\
      (forall u, u ∈ gone n afresh h -> owed_at (pcs y) u = if decide (took_effect ms u) then 1%Z else 0%Z).
  Proof.
    intros E. destruct (panic_sim _ _ _ E _ (Nat.le_refl _)) as (y & Ey & S). destruct (reach_ends _ _ _ Ey) as (ms & s & ph & past & L & Rx & En).
    eexists _, y, ms, s, ph, past. splits; [done|done|done|done| | |].
    - apply (stored_same _ _ _ (s_mem _ _ _ _ _ S)). destruct (R_stored zero comp H _ _ _ _ Rx) as (ids & P & Es & _). by exists ids.
    - intros u o r Hu Hl. destruct (s_stuck _ _ _ _ _ S u Hu) as (p & Ep & (k & v & prevs & succs & l & prev & c & ->)).
      destruct Rx as (pub & ch & Rr). pose proof (r_pcs _ _ _ _ _ _ _ _ _ Rr _ _ Ep) as (Hk & _). pose proof (ends_last _ _ _ (En u)) as F. fold (last_mark u ms) in F.
      destruct k as [|l' new| | | |z]; cbn [purposeI] in Hk; try (rewrite Hk in F; cbn in F; congruence).
      destruct Hk as (Hk & _). rewrite Hk in F. cbn in F. exists v. rewrite Hl in F. by injection F as -> ->.
    - intros u Hu. destruct (s_stuck _ _ _ _ _ S u Hu) as (p & Ep & (k & v & prevs & succs & l & prev & c & ->)).
      destruct Rx as (pub & ch & Rr). pose proof (r_pcs _ _ _ _ _ _ _ _ _ Rr _ _ Ep) as (Hk & _). pose proof (ends_last _ _ _ (En u)) as F. fold (last_mark u ms) in F.
      unfold owed_at. rewrite Ep.
      destruct k as [|l' new| | | |z]; cbn [purposeI] in Hk; cbn [owed]; try (rewrite Hk in F; cbn in F; rewrite decide_False; [done|]; intros (? & ? & F'); congruence).
      destruct Hk as (Hk & _). rewrite Hk in F. cbn in F. rewrite decide_True; [done|]. by repeat eexists.
  Qed.
  Lemma sumz_filter ms l f : (forall u, u ∈ l -> f u = if decide (took_effect (T := T) ms u) then 1%Z else 0%Z) ->
    sumz f l = Z.of_nat (length (filter (took_effect ms) l)).
  Proof.
    induction l as [|u l IH]; intros E; [done|]. cbn [sumz foldr]. rewrite filter_cons, (E u) by (by left). unfold sumz in IH. rewrite IH by (intros w Hw; apply E; by right).
    destruct (decide (took_effect ms u)); cbn [length]; lia.
  Qed.
  Lemma panic_counter n h x : exec pstep (sys_init zero n) h x -> exists ms s d,
      linearizes legal [] (renamed n afresh h) ms s /\ stored x s /\
      (forall u o r, u ∈ gone n afresh h -> last_mark u ms = Some (Eff u o r) -> exists v, o = Add v /\ r = RBool true) /\
      size (shared x) = to_int32 (Z.of_nat (length s) - Z.of_nat (length (filter (took_effect ms) (gone n afresh h))) + d) /\
      (Z.abs d <= Z.of_nat (length (filter (fun p => in_call p) (pcs x))))%Z /\ (quiet x -> d = 0%Z).
  Proof.
    intros E. destruct (panic_reach _ _ _ E) as (N & y & ms & s & ph & past & Ey & S & L & Rx & Hs & Ha & Ho). exists ms, s, (- total (pcs x))%Z.
    splits; [done|done|done| | |].
    - destruct Rx as (pub & ch & Rr). rewrite <-(s_mem _ _ _ _ _ S), (r_size _ _ _ _ _ _ _ _ _ Rr), (s_tot _ _ _ _ _ S), (sumz_filter ms) by done. f_equal. lia.
    - rewrite Z.abs_opp. apply total_bound.
    - intros Q. by rewrite total_quiet.
  Qed.
  (** the silent steps between two events are bounded *)
  Lemma SIM_silent n N h x y k z : SIM n N h x y -> nsteps (fun a b => pstep a None b) k x z -> exists w, nsteps (fun a b => step a None b) k y w.
  Proof.
    intros S Hk. revert y S. induction Hk as [x|k x x1 z St Hk IH]; intros y S; [exists y; constructor|].
    inversion St as [x' e y' St'|]; subst. destruct e as [e|]; [done|]. destruct y as [m' qs].
    inversion St' as [|m ps t p top m1 p' Ep Hr Ht Es|]; subst. pose proof (s_mem _ _ _ _ _ S) as Em. cbn in Em. subst m'.
    destruct (IH (Sys m1 (<[t + n * bump afresh h t := p']> qs))) as (w & Hw); [by eapply SIM_upd|].
    exists w. econstructor; [|done]. eapply s_silent; [|done|done|done]. by apply (s_cur _ _ _ _ _ S).
  Qed.
  Lemma panic_silent_bound n h x : exec pstep (sys_init zero n) h x -> exists N, forall k y, nsteps (fun a b => pstep a None b) k x y -> k <= N.
  Proof.
    intros E. destruct (panic_sim _ _ _ E _ (Nat.le_refl _)) as (y & Ey & S). destruct (silent_bound zero comp H _ _ _ Ey) as (N & HN).
    exists N. intros k z Hk. destruct (SIM_silent _ _ _ _ _ _ _ S Hk) as (w & Hw). by eapply HN.
  Qed.
  (** an infinite run sees returns or panics again and again *)
  Lemma SIM_step n N h x y e x' : SIM n N h x y -> pstep x e x' -> (forall t r, e <> Some (Did (Return t r))) -> (forall t, e <> Some (Abandoned t)) ->
    exists h' y', SIM n N h' x' y' /\ moves comp y' y.
  Proof.
    intros S St Nr Na. destruct y as [m' qs]. inversion St as [x0 e0 y0 St'|m ps t p Ep Hc]; subst; [|by destruct (Na t)].
    inversion St' as [m ps t o Ep|m ps t p top m1 p' Ep Hr Ht Es|m ps t r Ep]; subst; pose proof (s_mem _ _ _ _ _ S) as Em; cbn in Em; subst m'.
    - exists (h ++ [Did (Call t o)]), (Sys m (<[t + n * bump afresh h t := start o]> qs)). split.
      + eapply SIM_upd; [done|done| |]; [by rewrite bump_app|]. rewrite gone_app. cbn. by rewrite app_nil_r.
      + eexists. split; [apply s_call; by apply (s_cur _ _ _ _ _ S)|]. done.
    - exists h, (Sys m1 (<[t + n * bump afresh h t := p']> qs)). split; [by eapply SIM_upd|].
      exists None. split; [|done]. eapply s_silent; [|done|done|done]. by apply (s_cur _ _ _ _ _ S).
    - by destruct (Nr t r).
  Qed.
  Lemma panic_lock_free n (run : nat -> sys T) (ev : nat -> option (pevent T)) :
    run 0 = sys_init zero n -> (forall i, pstep (run i) (ev i) (run (S i))) ->
    forall i, exists j, i <= j /\ ((exists t r, ev j = Some (Did (Return t r))) \/ exists t, ev j = Some (Abandoned t)).
  Proof.
    intros R0 St i. assert (exists h, exec pstep (sys_init zero n) h (run i)) as [h E].
    { induction i as [|i [h E]]; [exists []; rewrite R0; constructor|]. specialize (St i). destruct (ev i) as [e|]; [exists (h ++ [e]); by eapply exec_event|exists h; by eapply exec_silent]. }
    destruct (panic_sim _ _ _ E _ (Nat.le_refl _)) as (y & Ey & S0). remember (n * _) as N eqn:EN. clear EN.
    assert (A : Acc (moves comp) y). { apply (good_acc zero comp H). destruct (reach zero comp H _ _ _ Ey) as (ms & s & ph & past & _ & Rx). by exists s, ph, past. }
    clear Ey E. revert h i S0. induction A as [y _ IH]. intros h i S0.
    destruct (ev i) as [[[t o|t r]|t]|] eqn:Ei.
    - destruct (SIM_step _ _ _ _ _ _ _ S0 (St i)) as (h' & y' & S1 & M); [by rewrite Ei|by rewrite Ei|]. destruct (IH _ M _ _ S1) as (j & L & Hj). exists j. split; [lia|done].
    - exists i. split; [done|]. left. by exists t, r.
    - exists i. split; [done|]. right. by exists t.
    - destruct (SIM_step _ _ _ _ _ _ _ S0 (St i)) as (h' & y' & S1 & M); [by rewrite Ei|by rewrite Ei|]. destruct (IH _ M _ _ S1) as (j & L & Hj). exists j. split; [lia|done].
  Qed.
  Lemma panic_no_panic n h x : exec pstep (sys_init zero n) h x -> ~ panics comp x.
  Proof.
    intros E (t & p & top & Ep & Hr & Ht & Es). destruct (panic_sim _ _ _ E _ (Nat.le_refl _)) as (y & Ey & S). apply (reach_no_panic zero comp H _ _ _ Ey).
    exists (t + n * bump afresh h t), p, top. splits; [by apply (s_cur _ _ _ _ _ S)|done|done|]. by rewrite (s_mem _ _ _ _ _ S).
  Qed.
  Lemma panic_levels n h x l : exec pstep (sys_init zero n) h x -> l < max_level -> exists ids, path (heap (shared x)) l head ids.
  Proof.
    intros E L. destruct (panic_sim _ _ _ E _ (Nat.le_refl _)) as (y & Ey & S). rewrite <-(s_mem _ _ _ _ _ S). by eapply reach_levels.
  Qed.
  Lemma panic_bottom n h x : exec pstep (sys_init zero n) h x -> exists ids,
    path (heap (shared x)) 0 head ids /\ StronglySorted (fun a b => (comp a b < 0)%Z) (values (heap (shared x)) ids).
  Proof.
    intros E. destruct (panic_sim _ _ _ E _ (Nat.le_refl _)) as (y & Ey & S). rewrite <-(s_mem _ _ _ _ _ S).
    destruct (reach zero comp H _ _ _ Ey) as (ms & s & ph & past & _ & Rx). destruct (R_stored zero comp H _ _ _ _ Rx) as (ids & P & _ & So). by exists ids.
  Qed.
End lf.
