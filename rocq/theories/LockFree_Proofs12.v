(** A call that never completes: two goroutines, one searching for v, the other
    adding, removing and looking up v over and over. *)
From Verif Require Import Base Lin_Spec LockFree_Model LockFree_Spec.

Section starve.
  Context {T : Type} (zero : T) (comp : T -> T -> Z) (v : T) (Hv : comp v v = 0%Z).
  Local Notation mem := (mem T).
  Local Notation pc := (pc T).
  Definition hd0 (x : link) : node T := Node max_level (x :: replicate 19 (Some tail, false)) zero.
  Definition tl0 : node T := Node max_level (replicate max_level (None, false)) zero.
  Definition hp0 (x : link) (g : list (node T)) : list (node T) := hd0 x :: tl0 :: g.
  Definition bottom (b : bool) : node T := Node 1 [(Some tail, b)] v.

  (** steps of one goroutine, with tower height 1 *)
  Definition at_snip (p : pc) : bool := match p with Find _ _ _ _ (PSnip _ _ _ _) => true | _ => false end.
  Definition ts (q : bool) (a b : mem * pc) : Prop := running a.2 = true /\ (q = true -> at_snip a.2 = false) /\ tstep comp a.1 a.2 1 = Ok b.
  Lemma rtc_ts q a b c : running a.2 = true -> (q = true -> at_snip a.2 = false) -> tstep comp a.1 a.2 1 = Ok b -> rtc (ts q) b c -> rtc (ts q) a c.
  Proof. intros. by eapply rtc_l. Qed.
  Lemma load_hd x g l : l < 19 -> load_next (hp0 x g) (Some head) (S l) = Ok (Some tail, false).
  Proof. intros H. change (deref (replicate 19 (Some tail, false) !! l) = Ok (Some tail, false)). by rewrite lookup_replicate_2. Qed.
  Lemma load_tl x g l : l < 20 -> load_next (hp0 x g) (Some tail) l = Ok (None, false).
  Proof. intros H. change (deref (replicate 20 (None, false) !! l) = Ok (@None nat, false)). by rewrite lookup_replicate_2. Qed.
  Lemma get_new x g b : hp0 x (g ++ [bottom b]) !! (2 + length g) = Some (bottom b).
  Proof. change ((g ++ [bottom b]) !! length g = Some (bottom b)). by rewrite list_lookup_middle. Qed.
  Lemma load_new x g b : load_next (hp0 x (g ++ [bottom b])) (Some (2 + length g)) 0 = Ok (Some tail, b).
  Proof.
    unfold load_next. cbn [deref rbind]. by rewrite get_new.
  Qed.
  Lemma less_tl h : less comp h (Some tail) v = Ok false.
  Proof. done. Qed.
  Lemma cas_hd x g y : cas_next (hp0 x g) (Some head) 0 x y = Ok (true, hp0 y g).
  Proof.
    unfold cas_next. cbn [deref rbind]. change (hp0 x g !! head) with (Some (hd0 x)). cbn [deref rbind].
    change (nexts (hd0 x) !! 0) with (Some x). cbn [deref rbind]. by rewrite decide_True.
  Qed.
  Lemma cas_new x g : cas_next (hp0 x (g ++ [bottom false])) (Some (2 + length g)) 0 (Some tail, false) (Some tail, true) = Ok (true, hp0 x (g ++ [bottom true])).
  Proof.
    unfold cas_next. cbn [deref rbind]. rewrite get_new. cbn [deref rbind].
    change (nexts (bottom false) !! 0) with (Some (Some tail, false)). cbn [deref rbind]. rewrite decide_True by done. do 2 f_equal.
    change (<[2 + length g := bottom true]> (hp0 x (g ++ [bottom false])) = hp0 x (g ++ [bottom true])).
    unfold hp0. cbn [plus insert list_insert]. do 2 f_equal. 
    transitivity (<[length g := bottom true]> (g ++ [bottom false])); [done|]. rewrite insert_app_r_alt by done. by rewrite Nat.sub_diag.
  Qed.
  Lemma descend q x g sz k l : l < 20 -> forall P S, length P = 20 -> length S = 20 ->
    exists P' S', length P' = 20 /\ length S' = 20 /\
      rtc (ts q) (Mem (hp0 x g) sz, Find k v P S (PLoad l (Some head))) (Mem (hp0 x g) sz, Find k v P' S' (PLoad 0 (Some head))).
  Proof.
    induction l as [|l IH]; intros Hl P S HP HS; [exists P, S; splits; [done|done|constructor]|].
    destruct (IH ltac:(lia) (<[Datatypes.S l := Some head]> P) (<[Datatypes.S l := Some tail]> S)) as (P' & S' & L1 & L2 & R); [by rewrite insert_length|by rewrite insert_length|].
    exists P', S'. splits; [done|done|]. eapply rtc_ts; [done|done| |]; cbn [fst snd tstep heap].
    { by rewrite load_hd by lia. }
    eapply rtc_ts; [done|done| |exact R]; cbn [fst snd tstep heap get_unmarked].
    by rewrite load_tl by lia.
  Qed.

  (** Add v on an empty list *)
  Lemma run_add g : rtc (ts false) (Mem (hp0 (Some tail, false) g) 0, start (Add v))
    (Mem (hp0 (Some (2 + length g), false) (g ++ [bottom false])) 1, Ready (RBool true)).
  Proof.
    destruct (descend false (Some tail, false) g 0 ForAdd 19 ltac:(lia) no_nodes no_nodes eq_refl eq_refl) as (P & S & HP & HS & R).
    eapply rtc_transitive; [exact R|].
    eapply rtc_ts; [done|done|reflexivity|].
    eapply rtc_ts; [done|done| |].
    { cbn [fst snd tstep heap get_unmarked]. rewrite load_tl by lia. cbn [rbind is_marked]. rewrite less_tl. cbn [rbind]. unfold found.
      cbn [equals rbind]. reflexivity. }
    destruct P as [|p0 P]; [done|]. destruct S as [|s0 S]; [done|]. cbn [insert list_insert].
    eapply rtc_ts; [done|done| |].
    { cbn [fst snd tstep heap size]. cbn [lookup list_lookup deref rbind].
      change (length (hp0 (Some tail, false) g)) with (2 + length g).
      change (hp0 (Some tail, false) g ++ [make_node 1 v (Some tail :: S)]) with (hp0 (Some tail, false) (g ++ [bottom false])).
      rewrite cas_hd. cbn [rbind]. rewrite get_new. cbn [deref rbind level bottom]. reflexivity. }
    eapply rtc_ts; [done|done|reflexivity|]. constructor.
  Qed.
  Lemma run_del g : rtc (ts false) (Mem (hp0 (Some (2 + length g), false) (g ++ [bottom false])) 1, start (Del v))
    (Mem (hp0 (Some (2 + length g), false) (g ++ [bottom true])) 0, Ready (RBool true)).
  Proof.
    destruct (descend false (Some (2 + length g), false) (g ++ [bottom false]) 1 ForDel 19 ltac:(lia) no_nodes no_nodes eq_refl eq_refl) as (P & S & HP & HS & R).
    eapply rtc_transitive; [exact R|].
    eapply rtc_ts; [done|done|reflexivity|].
    eapply rtc_ts; [done|done| |].
    { cbn [fst snd tstep heap get_unmarked]. rewrite load_new. cbn [rbind is_marked snd]. unfold less.
      rewrite decide_False by done. rewrite decide_False by done. cbn [deref rbind]. rewrite get_new. cbn [deref rbind value bottom]. rewrite bool_decide_false by lia.
      unfold found, equals. rewrite decide_False by (intros [?|?]; done). cbn [deref rbind heap]. rewrite get_new. cbn [deref rbind value bottom]. rewrite bool_decide_true by done. cbn [level]. reflexivity. }
    eapply rtc_ts; [done|done| |].
    { cbn [fst snd tstep heap Nat.sub]. rewrite load_new. cbn [rbind is_marked snd]. reflexivity. }
    eapply rtc_ts; [done|done| |].
    { cbn [fst snd tstep heap size get_marked]. rewrite cas_new. cbn [rbind]. reflexivity. }
    eapply rtc_ts; [done|done|reflexivity|]. constructor.
  Qed.
  Lemma run_to_snip q g k P S : length P = 20 -> length S = 20 ->
    exists P' S', length P' = 20 /\ length S' = 20 /\
    rtc (ts q) (Mem (hp0 (Some (2 + length g), false) (g ++ [bottom true])) 0, Find k v P S (PLoad 19 (Some head)))
      (Mem (hp0 (Some (2 + length g), false) (g ++ [bottom true])) 0, Find k v P' S' (PSnip 0 (Some head) (Some (2 + length g)) (Some tail, true))).
  Proof.
    intros HP HS. destruct (descend q (Some (2 + length g), false) (g ++ [bottom true]) 0 k 19 ltac:(lia) P S HP HS) as (P' & S' & HP' & HS' & R).
    exists P', S'. splits; [done|done|]. eapply rtc_transitive; [exact R|].
    eapply rtc_ts; [done|done|reflexivity|].
    eapply rtc_ts; [done|done| |constructor].
    cbn [fst snd tstep heap get_unmarked]. rewrite load_new. reflexivity.
  Qed.
  Lemma run_has g : rtc (ts false) (Mem (hp0 (Some (2 + length g), false) (g ++ [bottom true])) 0, start (Has v))
    (Mem (hp0 (Some tail, false) (g ++ [bottom true])) 0, Ready (RBool false)).
  Proof.
    destruct (run_to_snip false g ForHas no_nodes no_nodes eq_refl eq_refl) as (P & S & HP & HS & R).
    eapply rtc_transitive; [exact R|].
    eapply rtc_ts; [done|done| |].
    { cbn [fst snd tstep heap size]. rewrite cas_hd. cbn [rbind get_unmarked fst]. reflexivity. }
    eapply rtc_ts; [done|done|reflexivity|]. 
    eapply rtc_ts; [done|done| |constructor].
    cbn [fst snd tstep get_unmarked]. 
    change (load_next _ _ 0) with (load_next (hp0 (Some tail, false) (g ++ [bottom true])) (Some tail) 0). rewrite load_tl by lia. reflexivity.
  Qed.

  (** the scheduler: the second goroutine adds v to the empty list, removes it,
      lets the first one find the removed node, and removes that node from under it *)
  Definition play1 (o : op T) (m : mem) (p0 : pc) : option (event (op T) (ret T)) * sys T :=
    (Some (Call 1 o), Sys m [p0; start o]).
  Definition turn (x : sys T) : option (event (op T) (ret T)) * sys T :=
    let m := shared x in
    match pcs x with
    | [p0; p1] =>
        match p1 with
        | Ready r => (Some (Return 1 r), Sys m [p0; Quiet])
        | Quiet =>
            let bot := load_next (heap m) (Some head) 0 in
            if at_snip p0 then
              match bot with
              | Ok (Some 1, _) => match tstep comp m p0 1 with Ok (m', p') => (None, Sys m' [p'; p1]) | _ => (None, x) end
              | _ => play1 (Has v) m p0
              end
            else
              match bot with
              | Ok (Some 1, _) => play1 (Add v) m p0
              | Ok (Some i, _) =>
                  match load_next (heap m) (Some i) 0 with
                  | Ok (_, true) => match tstep comp m p0 1 with Ok (m', p') => (None, Sys m' [p'; p1]) | _ => (None, x) end
                  | _ => play1 (Del v) m p0
                  end
              | _ => (None, x)
              end
        | _ => match tstep comp m p1 1 with Ok (m', p') => (None, Sys m' [p0; p']) | _ => (None, x) end
        end
    | _ => (None, x)
    end.
  Definition good (e : option (event (op T) (ret T))) : Prop := forall r, e <> Some (Return 0 r).
  Inductive fpath : nat -> sys T -> sys T -> Prop :=
  | fp_0 x : fpath 0 x x
  | fp_S n x y : step comp x (turn x).1 (turn x).2 -> good (turn x).1 -> fpath n (turn x).2 y -> fpath (S n) x y.
  Lemma fpath_app n x y : fpath n x y -> forall k z, fpath k y z -> fpath (n + k) x z.
  Proof. induction 1; intros; [done|]. cbn. econstructor; [done|done|by auto]. Qed.
  Lemma lvl1 : random_level 1.
  Proof. unfold random_level, max_level. lia. Qed.
  Lemma path1 p0 m p m' p' : rtc (ts false) (m, p) (m', p') -> exists n, fpath n (Sys m [p0; p]) (Sys m' [p0; p']).
  Proof.
    intros R. remember (m, p) as a eqn:Ea. remember (m', p') as b eqn:Eb. revert m p Ea Eb. induction R as [a|a c b (H1 & _ & H3) R IH]; intros m p -> E.
    - injection E as -> ->. exists 0. constructor.
    - destruct c as [m1 p1]. cbn [fst snd] in *. destruct (IH m1 p1 eq_refl E) as [n F].
      assert (Et : turn (Sys m [p0; p]) = (None, Sys m1 [p0; p1])).
      { unfold turn. cbn [pcs shared]. destruct p; try done; by rewrite H3. }
      exists (S n). econstructor; rewrite Et; cbn [fst snd]; [|done|done].
      apply (s_silent _ m [p0; p] 1 p 1 m1 p1); [done|done|apply lvl1|done].
  Qed.
  Lemma turn0 m p m1 p1 g : heap m = hp0 (Some (2 + length g), false) (g ++ [bottom true]) -> at_snip p = false -> tstep comp m p 1 = Ok (m1, p1) ->
    turn (Sys m [p; Quiet]) = (None, Sys m1 [p1; Quiet]).
  Proof.
    intros Hm Hs H. unfold turn. cbn [pcs shared]. rewrite Hs, Hm. change (load_next (hp0 ?x ?g) (Some head) 0) with (Ok x).
    cbn [plus]. change (S (S (length g))) with (2 + length g). rewrite load_new. by rewrite H.
  Qed.
  Lemma path0 g m p m' p' : heap m = hp0 (Some (2 + length g), false) (g ++ [bottom true]) -> m' = m ->
    rtc (fun a b => ts true a b /\ b.1 = a.1) (m, p) (m', p') -> exists n, fpath n (Sys m [p; Quiet]) (Sys m' [p'; Quiet]).
  Proof.
    intros Hm -> R. remember (m, p) as a eqn:Ea. remember (m, p') as b eqn:Eb. revert p Ea Eb. induction R as [a|a c b [(H1 & H2 & H3) H4] R IH]; intros p -> E.
    - injection E as ->. exists 0. constructor.
    - destruct c as [m1 p1]. cbn [fst snd] in *. subst m1. destruct (IH p1 eq_refl E) as [n F].
      pose proof (turn0 m p m p1 g Hm (H2 eq_refl) H3) as Et.
      exists (S n). econstructor; rewrite Et; cbn [fst snd]; [|done|done].
      apply (s_silent _ m [p; Quiet] 0 p 1 m p1); [done|done|apply lvl1|done].
  Qed.
  Definition has_pc (p : pc) : Prop := match p with Find ForHas _ _ _ _ | Ready _ => True | _ => False end.
  Lemma has_step m p m1 p1 : has_pc p -> ts true (m, p) (m1, p1) -> m1 = m /\ has_pc p1.
  Proof.
    intros Hp (H1 & H2 & H3). cbn [fst snd] in *. specialize (H2 eq_refl). destruct p; try done. destruct k; try done. destruct p as [l pr|l pr cu|]; [| |done]; cbn [tstep] in H3.
    - destruct (load_next _ _ _) as [x| |]; try done. by injection H3 as <- <-.
    - destruct (load_next _ _ _) as [x| |]; try done. cbn [rbind] in H3. destruct (is_marked x); [by injection H3 as <- <-|].
      destruct (less _ _ _ _) as [b| |]; try done. cbn [rbind] in H3. destruct b; [by injection H3 as <- <-|].
      destruct l as [|l]; [|by injection H3 as <- <-]. cbn [found] in H3. destruct (equals _ _ _ _) as [b| |]; try done. by injection H3 as <- <-.
  Qed.
  Lemma has_rtc m p m' p' : has_pc p -> rtc (ts true) (m, p) (m', p') -> m' = m /\ rtc (fun a b => ts true a b /\ b.1 = a.1) (m, p) (m', p').
  Proof.
    intros Hp R. remember (m, p) as a eqn:Ea. remember (m', p') as b eqn:Eb. revert m p Ea Hp. induction R as [a|a [m1 p1] b H R IH]; intros m p Ea Hp.
    - split; [congruence|constructor].
    - subst a. destruct (has_step _ _ _ _ Hp H) as [-> Hp1]. destruct (IH Eb m p1 eq_refl Hp1) as [-> R']. split; [done|]. by eapply rtc_l.
  Qed.

  (** the states the schedule comes back to: the list is empty, g removed nodes
      are garbage, the first goroutine is at the start of its search *)
  Definition fam (x : sys T) : Prop := exists g P S, length P = 20 /\ length S = 20 /\
    x = Sys (Mem (hp0 (Some tail, false) g) 0) [find_start ForHas v P S; Quiet].
  Lemma fpath_1 x y e : turn x = (e, y) -> step comp x e y -> good e -> fpath 1 x y.
  Proof. intros E H G. econstructor; rewrite E; [done|done|constructor]. Qed.
  Definition snip0 (x : sys T) : bool := match pcs x !! 0 with Some p => at_snip p | None => false end.
  Lemma cycle x : fam x -> exists n1 x1 n2 y, fpath n1 x x1 /\ fpath n2 x1 y /\ 0 < n1 + n2 /\ snip0 x1 <> snip0 x /\ fam y.
  Proof.
    intros (g & P & S & HP & HS & ->). set (p0 := find_start ForHas v P S).
    set (m1 := Mem (hp0 (Some (2 + length g), false) (g ++ [bottom false])) 1).
    set (m2 := Mem (hp0 (Some (2 + length g), false) (g ++ [bottom true])) 0).
    set (m3 := Mem (hp0 (Some tail, false) (g ++ [bottom true])) 0).
    destruct (path1 p0 _ _ _ _ (run_add g)) as [a1 F1]. destruct (path1 p0 _ _ _ _ (run_del g)) as [a2 F2].
    destruct (run_to_snip true g ForHas P S HP HS) as (P' & S' & HP' & HS' & R).
    destruct (has_rtc _ p0 _ _ (I : has_pc p0) R) as [_ R']. destruct (path0 g m2 _ m2 _ eq_refl eq_refl R') as [a3 F3].
    set (q0 := Find ForHas v P' S' (PSnip 0 (Some head) (Some (2 + length g)) (Some tail, true))) in *.
    destruct (path1 q0 _ _ _ _ (run_has g)) as [a4 F4].
    assert (C1 : fpath 1 (Sys (Mem (hp0 (Some tail, false) g) 0) [p0; Quiet]) (Sys (Mem (hp0 (Some tail, false) g) 0) [p0; start (Add v)])).
    { eapply fpath_1; [reflexivity| |done]. apply (s_call _ _ [p0; Quiet] 1 (Add v)); done. }
    assert (C1' : fpath 1 (Sys m1 [p0; Ready (RBool true)]) (Sys m1 [p0; Quiet])).
    { eapply fpath_1; [reflexivity| |done]. apply (s_return _ _ [p0; Ready (RBool true)] 1); done. }
    assert (C2 : fpath 1 (Sys m1 [p0; Quiet]) (Sys m1 [p0; start (Del v)])).
    { eapply (fpath_1 _ _ (Some (Call 1 (Del v)))); [| |done].
      - unfold turn. cbn [pcs shared at_snip p0 find_start]. unfold m1. cbn [heap]. change (load_next (hp0 ?x ?g) (Some head) 0) with (Ok x).
        cbn [plus]. change (Datatypes.S (Datatypes.S (length g))) with (2 + length g). by rewrite load_new.
      - apply (s_call _ _ [p0; Quiet] 1 (Del v)); done. }
    assert (C2' : fpath 1 (Sys m2 [p0; Ready (RBool true)]) (Sys m2 [p0; Quiet])).
    { eapply fpath_1; [reflexivity| |done]. apply (s_return _ _ [p0; Ready (RBool true)] 1); done. }
    assert (C3 : fpath 1 (Sys m2 [q0; Quiet]) (Sys m2 [q0; start (Has v)])).
    { eapply fpath_1; [reflexivity| |done]. apply (s_call _ _ [q0; Quiet] 1 (Has v)); done. }
    assert (C3' : fpath 1 (Sys m3 [q0; Ready (RBool false)]) (Sys m3 [q0; Quiet])).
    { eapply fpath_1; [reflexivity| |done]. apply (s_return _ _ [q0; Ready (RBool false)] 1); done. }
    assert (E4 : tstep comp m3 q0 1 = Ok (m3, find_start ForHas v P' S')).
    { unfold q0. cbn [tstep]. unfold m3. cbn [heap]. unfold cas_next. cbn [deref rbind]. change (hp0 ?x ?g !! head) with (Some (hd0 x)). cbn [deref rbind].
      change (nexts (hd0 ?x) !! 0) with (Some x). cbn [deref rbind]. by rewrite decide_False. }
    assert (C4 : fpath 1 (Sys m3 [q0; Quiet]) (Sys m3 [find_start ForHas v P' S'; Quiet])).
    { eapply (fpath_1 _ _ None); [| |done].
      - unfold turn. cbn [pcs shared at_snip q0]. unfold m3 at 1. cbn [heap]. change (load_next (hp0 ?x ?g) (Some head) 0) with (Ok x). cbn [tail]. by rewrite E4.
      - apply (s_silent _ m3 [q0; Quiet] 0 q0 1); [done|done|apply lvl1|done]. }
    eexists _, (Sys m2 [q0; Quiet]), _, (Sys m3 [find_start ForHas v P' S'; Quiet]). splits.
    - eapply fpath_app; [exact C1|]. eapply fpath_app; [exact F1|]. eapply fpath_app; [exact C1'|]. eapply fpath_app; [exact C2|].
      eapply fpath_app; [exact F2|]. eapply fpath_app; [exact C2'|]. exact F3.
    - eapply fpath_app; [exact C3|]. eapply fpath_app; [exact F4|]. eapply fpath_app; [exact C3'|]. exact C4.
    - lia.
    - done.
    - by exists (g ++ [bottom true]), P', S'.
  Qed.

  (** the infinite run *)
  Fixpoint orbit (i : nat) : sys T :=
    match i with
    | O => Sys (new_list zero) [start (Has v); Quiet]
    | S i => (turn (orbit i)).2
    end.
  Lemma fam_0 : fam (orbit 0).
  Proof. exists [], no_nodes, no_nodes. done. Qed.
  Lemma orbit_add i n y : fpath n (orbit i) y -> y = orbit (i + n).
  Proof.
    remember (orbit i) as x eqn:Ex. intros F. revert i Ex. induction F as [x|n x y H G F IH]; intros i ->; [by rewrite Nat.add_0_r|].
    rewrite (IH (S i) eq_refl). f_equal. lia.
  Qed.
  Lemma fpath_inv n x y : fpath (S n) x y -> step comp x (turn x).1 (turn x).2 /\ good (turn x).1 /\ fpath n (turn x).2 y.
  Proof. inversion 1; subst. done. Qed.
  Lemma orbit_ok i : exists n y, fpath (S n) (orbit i) y /\ fam y.
  Proof.
    assert (G : forall x n y, fpath n x y -> fam y -> exists n' y', fpath (S n') x y' /\ fam y').
    { intros x [|n] y F Hy; [|by exists n, y]. assert (x = y) as -> by by inversion F.
      destruct (cycle y Hy) as (n1 & x1 & n2 & z & F1 & F2 & Hn & _ & Hz). pose proof (fpath_app _ _ _ F1 _ _ F2) as F3.
      destruct (n1 + n2) as [|k] eqn:E; [lia|]. by exists k, z. }
    induction i as [|i (n & y & F & Hy)]; [apply (G _ 0 (orbit 0)); [constructor|apply fam_0]|].
    apply fpath_inv in F as (_ & _ & F). by apply (G _ n y).
  Qed.
  Lemma orbit_step i : step comp (orbit i) (turn (orbit i)).1 (orbit (S i)) /\ good (turn (orbit i)).1.
  Proof. destruct (orbit_ok i) as (n & y & F & _). by apply fpath_inv in F as (? & ? & _). Qed.
  Lemma orbit_moves i : exists j, i <= j /\ pcs (orbit j) !! 0 <> pcs (orbit (S j)) !! 0.
  Proof.
    destruct (orbit_ok i) as (n & y & F & Hy). rewrite (orbit_add _ _ _ F) in Hy. set (a := i + S n) in *.
    destruct (cycle _ Hy) as (n1 & x1 & _ & _ & F1 & _ & _ & Hne & _). rewrite (orbit_add _ _ _ F1) in Hne.
    assert (a >= i) by (unfold a; lia). clearbody a. clear -Hne H. induction n1 as [|n1 IH]; [by rewrite Nat.add_0_r in Hne|].
    destruct (decide (snip0 (orbit (a + n1)) = snip0 (orbit a))) as [E|N]; [|by apply IH].
    exists (a + n1). split; [lia|]. rewrite Nat.add_succ_r in Hne. intros Eq. apply Hne. rewrite <- E. unfold snip0. by rewrite Eq.
  Qed.
  Lemma starves : exists run ev,
    run 0 = sys_init zero 2 /\ (forall i, step comp (run i) (ev i) (run (S i))) /\ ev 0 = Some (Call 0 (Has v))
    /\ (forall i r, ev i <> Some (Return 0 r)) /\ (forall i, exists j, i <= j /\ pcs (run j) !! 0 <> pcs (run (S j)) !! 0).
  Proof.
    exists (fun i => match i with O => sys_init zero 2 | S i => orbit i end), (fun i => match i with O => Some (Call 0 (Has v)) | S i => (turn (orbit i)).1 end).
    splits; [done| |done| |].
    - intros [|i]; [|apply orbit_step]. apply (s_call _ (new_list zero) [Quiet; Quiet] 0 (Has v)). done.
    - intros [|i] r; [done|]. by apply orbit_step.
    - intros i. destruct (orbit_moves i) as (j & Hj & Hne). exists (S j). split; [lia|done].
  Qed.
End starve.
