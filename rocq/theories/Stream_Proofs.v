From Verif Require Import Base Iter_Model Iter_Spec Split_Model Split_Proofs Stream_Model Stream_Spec.

Local Notation "f '<L$>' l" := (@fmap list list_fmap _ _ f l) (at level 61, left associativity).

Section proofs.
  Context {U : Type}.
  Notation W := (world U).

  (** ** kernels: the internal normal form of a segment *)
  Definition kernel (T : Type) := W -> kres T * W.
  Fixpoint krun {T} (ks : list (kernel T)) (w : W) : option (T * list (kernel T)) * W :=
    match ks with
    | [] => (None, w)
    | k :: ks' =>
      match k w with
      | (Emit v, w') => (Some (v, ks'), w')
      | (Drop, w') => krun ks' w'
      | (Stop, w') => (None, w')
      end
    end.
  Lemma krun_length {T} (ks : list (kernel T)) w v ks' w' :
    krun ks w = (Some (v, ks'), w') -> length ks' < length ks.
  Proof.
    revert w. induction ks as [|k ks IH]; intros w; simpl; [done|].
    destruct (k w) as [[x| |] w1]; intros E; [simplify_eq; lia| |done].
    specialize (IH _ E). lia.
  Qed.
  Lemma krun_suffix {T} (P : kernel T -> Prop) (ks : list (kernel T)) w v ks' w' :
    krun ks w = (Some (v, ks'), w') -> Forall P ks -> Forall P ks'.
  Proof.
    revert w. induction ks as [|k ks IH]; intros w; simpl; [done|].
    intros E HF. apply Forall_cons in HF as [_ HF].
    destruct (k w) as [[x| |] w1]; [by simplify_eq| |done]. eauto.
  Qed.

  Inductive acts {T} : iter U T -> list (kernel T) -> Prop :=
  | acts_intro it ks :
      (forall w v ks' w', krun ks w = (Some (v, ks'), w') ->
         exists it', returns it w (Some v) it' w' /\ acts it' ks') ->
      (forall w w', krun ks w = (None, w') -> exists it', returns it w None it' w') ->
      acts it ks.
  Lemma acts_some {T} (it : iter U T) ks w v ks' w' : acts it ks -> krun ks w = (Some (v, ks'), w') ->
    exists it', returns it w (Some v) it' w' /\ acts it' ks'.
  Proof. intros [? ? H1 H2]; eauto. Qed.
  Lemma acts_none {T} (it : iter U T) ks w w' : acts it ks -> krun ks w = (None, w') ->
    exists it', returns it w None it' w'.
  Proof. intros [? ? H1 H2]; eauto. Qed.

  Inductive gacts {T} : gen U T -> list (list (kernel T)) -> Prop :=
  | gacts_nil g : (forall w, exists g', greturns g w None g' w) -> gacts g []
  | gacts_cons g ks kss :
      (forall w, exists it g', greturns g w (Some it) g' w /\ acts it ks /\ gacts g' kss) ->
      gacts g (ks :: kss).

  (** ** the terminal loops *)
  Fixpoint kfold {T R} (f : R -> T -> U -> R * U) (ks : list (kernel T)) (acc : R) (w : W) : R * W :=
    match ks with
    | [] => (acc, w)
    | k :: ks' =>
      match k w with
      | (Emit v, w') => let '(acc', w'') := on_usr (f acc v) w' in kfold f ks' acc' w''
      | (Drop, w') => kfold f ks' acc w'
      | (Stop, w') => (acc, w')
      end
    end.
  Lemma kfold_run {T R} (f : R -> T -> U -> R * U) ks acc w :
    kfold f ks acc w =
      match krun ks w with
      | (Some (v, ks'), w') => let '(acc', w'') := on_usr (f acc v) w' in kfold f ks' acc' w''
      | (None, w') => (acc, w')
      end.
  Proof.
    revert w. induction ks as [|k ks IH]; intros w; simpl; [done|].
    destruct (k w) as [[x| |] w1]; try done. 
  Qed.

  Lemma fold_seg_acts {T R} (f : R -> T -> U -> R * U) ks : forall it acc w, acts it ks ->
    exists N, forall n fuel, N <= n -> N <= fuel -> fold_seg f n it acc fuel w = Ok (kfold f ks acc w).
  Proof.
    remember (length ks) as len eqn:Hlen. revert ks Hlen.
    induction (lt_wf len) as [len _ IH]. intros ks Hlen it acc w Ha.
    rewrite kfold_run. destruct (krun ks w) as [[[v ks']|] w'] eqn:E.
    - destruct (acts_some _ _ _ _ _ _ Ha E) as (it' & [N1 H1] & Ha').
      destruct (on_usr (f acc v) w') as [acc' w''] eqn:Ef.
      destruct (IH (length ks') ltac:(subst; eauto using krun_length) ks' eq_refl it' acc' w'' Ha') as [N2 H2].
      exists (S (N1 + N2)). intros [|n] fuel Hn Hf; [lia|]. cbn [fold_seg].
      rewrite H1 by lia. rewrite Ef. apply H2; lia.
    - destruct (acts_none _ _ _ _ Ha E) as (it' & [N1 H1]).
      exists (S N1). intros [|n] fuel Hn Hf; [lia|]. cbn [fold_seg]. by rewrite H1 by lia.
  Qed.

  Fixpoint kfolds {T R} (f : R -> T -> U -> R * U) (kss : list (list (kernel T))) (acc : R) (w : W) : R * W :=
    match kss with
    | [] => (acc, w)
    | ks :: kss' => let '(acc', w') := kfold f ks acc w in kfolds f kss' acc' w'
    end.
  Lemma fold_gen_acts {T R} (f : R -> T -> U -> R * U) kss : forall g acc w, gacts g kss ->
    exists N, forall n fuel, N <= n -> N <= fuel -> fold_gen f n g acc fuel w = Ok (kfolds f kss acc w).
  Proof.
    induction kss as [|ks kss IH]; intros g acc w Hg; inversion Hg as [? H0|? ? ? H0]; subst.
    - destruct (H0 w) as (g' & N & HN). exists (S N). intros [|n] fuel ? ?; [lia|].
      cbn [fold_gen]. by rewrite HN by lia.
    - destruct (H0 w) as (it & g' & [N1 H1] & Ha & Hg').
      destruct (fold_seg_acts f ks it acc w Ha) as [N2 H2].
      destruct (kfold f ks acc w) as [acc' w'] eqn:E.
      destruct (IH g' acc' w' Hg') as [N3 H3].
      exists (S (N1 + N2 + N3)). intros [|n] fuel ? ?; [lia|].
      cbn [fold_gen]. rewrite H1 by lia. rewrite H2 by lia. cbn [kfolds]. rewrite E. apply H3; lia.
  Qed.

  (** ** wrapping stages *)
  Lemma wrap_gacts {T R} (k : iter U T -> iter U R) (kk : kernel T -> kernel R) (P : kernel T -> Prop) kss :
    (forall it ks, acts it ks -> Forall P ks -> acts (k it) (kk <L$> ks)) ->
    Forall (Forall P) kss -> forall g,
    gacts g kss -> gacts (wrap_gen k g) ((fun ks => kk <L$> ks) <L$> kss).
  Proof.
    intros Hk. induction kss as [|ks kss IH]; intros HP g Hg; inversion Hg as [? H0|? ? ? H0]; subst.
    - constructor. intros w. destruct (H0 w) as (g' & N & HN). exists (wrap_gen k g'), N.
      intros m Hm. cbn. by rewrite HN.
    - apply Forall_cons in HP as [HP1 HP2].
      constructor. intros w. destruct (H0 w) as (it & g' & [N HN] & Ha & Hg').
      exists (k it), (wrap_gen k g'). splits; [|by auto|by auto].
      exists N. intros m Hm. cbn. by rewrite HN.
  Qed.

  Definition kmap {T R} (f : T -> U -> R * U) (k : kernel T) : kernel R := fun w =>
    match k w with
    | (Emit v, w') => let '(r, w'') := on_usr (f v) w' in (Emit r, w'')
    | (Drop, w') => (Drop, w') | (Stop, w') => (Stop, w') end.
  Definition kupd {T R} (f : T -> W -> R * W) (k : kernel T) : kernel R := fun w =>
    match k w with
    | (Emit v, w') => let '(r, w'') := f v w' in (Emit r, w'')
    | (Drop, w') => (Drop, w') | (Stop, w') => (Stop, w') end.
  Lemma krun_kupd {T R} (f : T -> W -> R * W) ks w :
    krun (kupd f <L$> ks) w =
    match krun ks w with
    | (Some (v, ks'), w') => let '(r, w'') := f v w' in (Some (r, kupd f <L$> ks'), w'')
    | (None, w') => (None, w')
    end.
  Proof.
    revert w. induction ks as [|k ks IH]; intros w; [done|]. cbn [fmap list_fmap krun].
    unfold kupd at 1. destruct (k w) as [[x| |] w1]; [by destruct (f x w1)|apply IH|done].
  Qed.

  (** an iterator transformer that applies [f] to each pulled element *)
  Lemma acts_upd {T R} (k : iter U T -> iter U R) (f : T -> W -> R * W) :
    (forall it m w, pull (k it) m w =
       match pull it m w with
       | Ok (Some t, it', w') => let '(r, w'') := f t w' in Ok (Some r, k it', w'')
       | Ok (None, it', w') => Ok (None, k it', w')
       | Panic => Panic | Fuel => Fuel end) ->
    forall ks it, acts it ks -> acts (k it) (kupd f <L$> ks).
  Proof.
    intros Hk ks. remember (length ks) as len eqn:Hlen. revert ks Hlen.
    induction (lt_wf len) as [len _ IH]. intros ks Hlen it Ha.
    constructor; intros w.
    - intros v ks' w' E. rewrite krun_kupd in E.
      destruct (krun ks w) as [[[v0 ks0]|] w0] eqn:E0; [|done].
      destruct (f v0 w0) as [r w''] eqn:Ef. injection E as -> <- ->.
      destruct (acts_some _ _ _ _ _ _ Ha E0) as (it' & [N HN] & Ha').
      exists (k it'). split.
      + exists N. intros m Hm. rewrite Hk, HN by done. by rewrite Ef.
      + eapply IH; [|done|done]. subst. eauto using krun_length.
    - intros w' E. rewrite krun_kupd in E.
      destruct (krun ks w) as [[[v0 ks0]|] w0] eqn:E0; [by destruct (f v0 w0)|].
      injection E as ->. destruct (acts_none _ _ _ _ Ha E0) as (it' & N & HN).
      exists (k it'), N. intros m Hm. by rewrite Hk, HN.
  Qed.

  Definition kkeep {T} (keep : T -> W -> bool * W) (k : kernel T) : kernel T := fun w =>
    match k w with
    | (Emit v, w') => let '(b, w'') := keep v w' in (if b then Emit v else Drop, w'')
    | r => r end.
  Lemma krun_kkeep {T} (keep : T -> W -> bool * W) ks w :
    krun (kkeep keep <L$> ks) w =
    match krun ks w with
    | (Some (v, ks'), w') =>
        let '(b, w'') := keep v w' in
        if b then (Some (v, kkeep keep <L$> ks'), w'') else krun (kkeep keep <L$> ks') w''
    | (None, w') => (None, w')
    end.
  Proof.
    revert w. induction ks as [|k ks IH]; intros w; [done|]. cbn [fmap list_fmap krun].
    unfold kkeep at 1. destruct (k w) as [[x| |] w1]; [by destruct (keep x w1) as [[] ?]|apply IH|done].
  Qed.
  Lemma keep_loop_acts {T} (keep : T -> W -> bool * W) ks : forall it w, acts it ks ->
    exists N it', 
      match krun (kkeep keep <L$> ks) w with
      | (Some (v, ks'), w') => exists ks0, ks' = kkeep keep <L$> ks0 /\ length ks0 < length ks /\ acts it' ks0 /\
          forall n fuel, N <= n -> N <= fuel -> keep_loop keep n it fuel w = Ok (Some v, it', w')
      | (None, w') => forall n fuel, N <= n -> N <= fuel -> keep_loop keep n it fuel w = Ok (None, it', w')
      end.
  Proof.
    remember (length ks) as len eqn:Hlen. revert ks Hlen.
    induction (lt_wf len) as [len _ IH]. intros ks Hlen it w Ha.
    rewrite krun_kkeep. destruct (krun ks w) as [[[v ks']|] w'] eqn:E.
    - destruct (acts_some _ _ _ _ _ _ Ha E) as (it' & [N1 H1] & Ha').
      pose proof (krun_length _ _ _ _ _ E) as Hl.
      destruct (keep v w') as [b w''] eqn:Ek. destruct b.
      + exists (S N1), it', ks'. splits; [done|lia|done|].
        intros [|n] fuel ? ?; [lia|]. cbn [keep_loop]. rewrite H1 by lia. by rewrite Ek.
      + destruct (IH (length ks') ltac:(lia) ks' eq_refl it' w'' Ha') as (N2 & it2 & H2).
        exists (S (N1 + N2)), it2.
        destruct (krun (kkeep keep <L$> ks') w'') as [[[v2 ks2]|] w2] eqn:E2.
        * destruct H2 as (ks0 & -> & Hl0 & Ha2 & H2). exists ks0. splits; [done|lia|done|].
          intros [|n] fuel ? ?; [lia|]. cbn [keep_loop]. rewrite H1 by lia. rewrite Ek. apply H2; lia.
        * intros [|n] fuel ? ?; [lia|]. cbn [keep_loop]. rewrite H1 by lia. rewrite Ek. apply H2; lia.
    - destruct (acts_none _ _ _ _ Ha E) as (it' & N1 & H1). exists (S N1), it'.
      intros [|n] fuel ? ?; [lia|]. cbn [keep_loop]. by rewrite H1 by lia.
  Qed.
  Lemma acts_keep {T} (keep : T -> W -> bool * W) ks it :
    acts it ks -> acts (keep_iter keep it) (kkeep keep <L$> ks).
  Proof.
    remember (length ks) as len eqn:Hlen. revert ks Hlen it.
    induction (lt_wf len) as [len _ IH]. intros ks Hlen it Ha.
    constructor; intros w.
    - intros v ks' w' E. destruct (keep_loop_acts keep ks it w Ha) as (N & it' & H). rewrite E in H.
      destruct H as (ks0 & -> & Hl & Ha' & H). exists (keep_iter keep it'). split.
      + exists N. intros m Hm. cbn. by rewrite H.
      + eapply IH; [|done|done]. lia.
    - intros w' E. destruct (keep_loop_acts keep ks it w Ha) as (N & it' & H). rewrite E in H.
      exists (keep_iter keep it'), N. intros m Hm. cbn. by rewrite H.
  Qed.

  (** Take *)
  Definition ktake {T} (c : nat) (n : Z) (k : kernel T) : kernel T := fun w =>
    if bool_decide (load c w < n)%Z then
      match k w with
      | (Emit v, w') => (Emit v, snd (add1 c w'))
      | r => r end
    else (Stop, w).
  Definition keeps_ctr {T} (c : nat) (k : kernel T) : Prop := forall w, load c (k w).2 = load c w.
  Lemma krun_ktake {T} (c : nat) (n : Z) (ks : list (kernel T)) w : Forall (keeps_ctr c) ks ->
    krun (ktake c n <L$> ks) w =
    if bool_decide (load c w < n)%Z then
      match krun ks w with
      | (Some (v, ks'), w') => (Some (v, ktake c n <L$> ks'), snd (add1 c w'))
      | (None, w') => (None, w')
      end
    else (None, w).
  Proof.
    intros HF. revert w. induction HF as [|k ks Hk HF IH]; intros w.
    - simpl. by case_bool_decide.
    - cbn [fmap list_fmap krun]. unfold ktake at 1. case_bool_decide as Hn; [|done].
      specialize (Hk w). destruct (k w) as [[x| |] w1] eqn:Ek; try done.
      simpl in Hk. rewrite (IH w1), Hk. by rewrite bool_decide_eq_true_2.
  Qed.
  Lemma acts_take {T} c n (it : iter U T) ks : acts it ks -> Forall (keeps_ctr c) ks ->
    acts (take_iter c n it) (ktake c n <L$> ks).
  Proof.
    remember (length ks) as len eqn:Hlen. revert ks Hlen it.
    induction (lt_wf len) as [len _ IH]. intros ks Hlen it Ha HF.
    constructor; intros w.
    - intros v ks' w' E. rewrite krun_ktake in E by done. case_bool_decide as Hn; [|done].
      destruct (krun ks w) as [[[v0 ks0]|] w0] eqn:E0; [|done]. injection E as -> <- <-.
      destruct (acts_some _ _ _ _ _ _ Ha E0) as (it' & [N HN] & Ha').
      exists (take_iter c n it'). split.
      + exists N. intros m Hm. cbn. rewrite bool_decide_eq_true_2 by done. rewrite HN by done. done.
      + eapply IH; [|done|done|]. { subst. eauto using krun_length. } eauto using krun_suffix.
    - intros w' E. rewrite krun_ktake in E by done. case_bool_decide as Hn.
      + destruct (krun ks w) as [[[v0 ks0]|] w0] eqn:E0; [done|]. injection E as <-.
        destruct (acts_none _ _ _ _ Ha E0) as (it' & N & HN).
        exists (take_iter c n it'), N. intros m Hm. cbn. rewrite bool_decide_eq_true_2 by done. by rewrite HN.
      + injection E as <-. exists (take_iter c n it), 0. intros m _. cbn.
        by rewrite bool_decide_eq_false_2.
  Qed.

  (** ** pipelines *)
  Definition kof {T V} (p : pipe T V) (x : T) : kernel V := element p x.
  Lemma element_keeps {T V} (p : pipe T V) c : c ∉ counters p -> forall x, keeps_ctr c (kof p x).
  Proof.
    unfold keeps_ctr, kof, load.
    induction p; intros Hc x w; simpl in *; try done;
      try (apply not_elem_of_cons in Hc as [Hc0 Hc]); try case_decide; simpl; try done;
      specialize (IHp Hc x w); destruct (element p x w) as [[y| |] w1]; simpl in *; try done;
      try (destruct (f y (usr w1))); simpl; try done;
      rewrite lookup_insert_ne by done; done.
  Qed.

  Lemma yields_acts {T} (it : iter U T) l : yields eq it l -> acts it ((fun x w => (Emit x, w)) <L$> l).
  Proof.
    revert it. induction l as [|x l IH]; intros it Hy; inversion Hy as [? H|? ? ? H]; subst.
    - constructor; intros w; simpl; [done|]. intros w' E. injection E as <-.
      destruct (H w) as (it' & w' & Hr & <-). eauto.
    - constructor; intros w; simpl; [|done]. intros v ks' w' E. injection E as <- <- <-.
      destruct (H w) as (it' & w' & Hr & <- & Hy'). eauto.
  Qed.
  Lemma gyields_acts {T} (g : gen U T) ls : gyields eq g ls ->
    gacts g ((fun l => (fun x w => (Emit x, w)) <L$> l) <L$> ls).
  Proof.
    revert g. induction ls as [|l ls IH]; intros g Hy; inversion Hy as [? H|? ? ? H]; subst.
    - constructor. intros w. destruct H as [H]. destruct (H w) as (g' & w' & Hr & <- & _). eauto.
    - constructor. intros w. destruct (H w) as (it & g' & w' & Hr & <- & Hy1 & Hy2).
      exists it, g'. splits; [done|by apply yields_acts|by apply IH].
  Qed.

  Lemma acts_ext {T} (it : iter U T) ks ks' :
    acts it ks -> Forall2 (fun k k' => forall w, k w = k' w) ks ks' -> acts it ks'.
  Proof.
    assert (Hrun : forall ks ks', Forall2 (fun k k' : kernel T => forall w, k w = k' w) ks ks' -> forall w,
      match krun ks' w with
      | (Some (v, r'), w') => exists r, krun ks w = (Some (v, r), w') /\ Forall2 (fun k k' => forall w, k w = k' w) r r'
      | (None, w') => krun ks w = (None, w')
      end).
    { intros a b HF. induction HF as [|k k' a b Hk HF IH]; intros w; simpl; [done|].
      rewrite Hk. destruct (k' w) as [[x| |] w1]; [eauto| |done]. apply IH. }
    remember (length ks) as len eqn:Hlen. revert ks Hlen it ks'.
    induction (lt_wf len) as [len _ IH]. intros ks Hlen it ks' Ha HF.
    constructor; intros w.
    - intros v r' w' E. specialize (Hrun _ _ HF w). rewrite E in Hrun. destruct Hrun as (r & E' & HF').
      destruct (acts_some _ _ _ _ _ _ Ha E') as (it' & Hr & Ha').
      exists it'. split; [done|]. apply (IH (length r)) with r; [|done|done|done].
      subst. eauto using krun_length.
    - intros w' E. specialize (Hrun _ _ HF w). rewrite E in Hrun. eauto using acts_none.
  Qed.
  Lemma gacts_ext {T} (g : gen U T) kss kss' :
    gacts g kss -> Forall2 (Forall2 (fun k k' => forall w, k w = k' w)) kss kss' -> gacts g kss'.
  Proof.
    intros Hg HF. revert g Hg. induction HF as [|ks ks' kss kss' Hk HF IH]; intros g Hg;
      inversion Hg as [? H|? ? ? H]; subst; constructor; [done|].
    intros w. destruct (H w) as (it & g' & Hr & Ha & Hg'). exists it, g'.
    splits; [done|by eapply acts_ext|by apply IH].
  Qed.

  Lemma wrap_kof {T R V} (k : iter U R -> iter U V) (kk : kernel R -> kernel V) (P : kernel R -> Prop)
      (p : pipe T R) (q : pipe T V) (s : stream U T) a (ls : list (list T)) :
    (forall it ks, acts it ks -> Forall P ks -> acts (k it) (kk <L$> ks)) ->
    (forall x, P (kof p x)) ->
    (forall x w, kk (kof p x) w = kof q x w) ->
    gacts (activate (build p s) a) ((fun l => kof p <L$> l) <L$> ls) ->
    gacts (activate (wrap k (build p s)) a) ((fun l => kof q <L$> l) <L$> ls).
  Proof.
    intros Hk HP Hq Hg. eapply gacts_ext; [eapply (wrap_gacts k kk P); [done| |exact Hg]|].
    - apply Forall_fmap, Forall_true. intros l. apply Forall_fmap, Forall_true. apply HP.
    - rewrite <- list_fmap_compose. apply Forall2_fmap, Forall_Forall2_diag, Forall_true. intros l. simpl.
      rewrite <- list_fmap_compose. apply Forall2_fmap, Forall_Forall2_diag, Forall_true. intros x w. apply Hq.
  Qed.

  Lemma build_gacts {T V} (p : pipe T V) (s : stream U T) a (ls : list (list T)) :
    NoDup (counters p) -> source s a ls ->
    gacts (activate (build p s) a) ((fun l => kof p <L$> l) <L$> ls).
  Proof.
    intros Hnd Hs. induction p as [|R V p IH f|R p IH f|R p IH f|R p IH f|R c p IH n|R c p IH n|R c p IH]; simpl in Hnd.
    - exact (gyields_acts _ _ Hs).
    - cbn [build]. unfold Map. eapply (wrap_kof _ (kupd (fun t => on_usr (f t))) (fun _ => True)); [| done | | by apply IH].
      + intros it ks Ha _. apply (acts_upd (map_iter f)); [|done]. intros; done.
      + intros x w. unfold kupd, kof, on_usr. cbn [element].
        destruct (element p x w) as [[y| |] w1]; [|done|done]. by destruct (f y (usr w1)).
    - cbn [build]. unfold Filter. eapply (wrap_kof _ (kkeep (fun t => on_usr (f t))) (fun _ => True)); [| done | | by apply IH].
      + intros it ks Ha _. by apply acts_keep.
      + intros x w. unfold kkeep, kof, on_usr. cbn [element].
        destruct (element p x w) as [[y| |] w1]; [|done|done]. by destruct (f y (usr w1)).
    - cbn [build]. unfold Inspect.
      eapply (wrap_kof _ (kupd (fun t w => (t, World (ctr w) (f t (usr w))))) (fun _ => True)); [| done | | by apply IH].
      + intros it ks Ha _. apply (acts_upd (inspect_iter f)); [|done]. intros; done.
      + intros x w. unfold kupd, kof. cbn [element].
        destruct (element p x w) as [[y| |] w1]; done.
    - cbn [build]. unfold SkipWhile.
      eapply (wrap_kof _ (kkeep _) (fun _ => True)); [| done | | by apply IH].
      + intros it ks Ha _. by apply acts_keep.
      + intros x w. unfold kkeep, kof, on_usr. cbn [element].
        destruct (element p x w) as [[y| |] w1]; [|done|done]. by destruct (f y (usr w1)) as [[] ?].
    - cbn [build]. unfold skip_at. apply NoDup_cons in Hnd as [Hc Hnd].
      eapply (wrap_kof _ (kkeep _) (fun _ => True)); [| done | | by apply IH].
      + intros it ks Ha _. by apply acts_keep.
      + intros x w. unfold kkeep, kof. cbn [element].
        destruct (element p x w) as [[y| |] w1]; [|done|done]. simpl.
        case_decide; [rewrite bool_decide_eq_true_2|rewrite bool_decide_eq_false_2]; done.
    - cbn [build]. unfold take_at. apply NoDup_cons in Hnd as [Hc Hnd].
      eapply (wrap_kof _ (ktake c n) (keeps_ctr c)); [| | | by apply IH].
      + intros it ks Ha HF. by apply acts_take.
      + by apply element_keeps.
      + intros x w. unfold ktake, kof, load. cbn [element].
        case_decide; [rewrite bool_decide_eq_true_2 by done|by rewrite bool_decide_eq_false_2].
        destruct (element p x w) as [[y| |] w1]; done.
    - cbn [build]. unfold enum_at. apply NoDup_cons in Hnd as [Hc Hnd].
      eapply (wrap_kof _ (kupd (fun t w => let '(v, w') := add1 c w in ((v, t), w'))) (fun _ => True)); [| done | | by apply IH].
      + intros it ks Ha _. apply (acts_upd (enum_iter c)); [|done]. intros; done.
      + intros x w. unfold kupd, kof. cbn [element].
        destruct (element p x w) as [[y| |] w1]; done.
  Qed.

  Lemma kfold_segment {T V R} (p : pipe T V) (f : R -> V -> U -> R * U) l acc w :
    kfold f (kof p <L$> l) acc w = run_segment p f l acc w.
  Proof.
    revert acc w. induction l as [|x l IH]; intros acc w; [done|].
    cbn [fmap list_fmap kfold run_segment]. unfold kof at 1.
    destruct (element p x w) as [[v| |] w1]; [|apply IH|done].
    unfold on_usr. destruct (f acc v (usr w1)). apply IH.
  Qed.
  Lemma kfolds_segments {T V R} (p : pipe T V) (f : R -> V -> U -> R * U) ls acc w :
    kfolds f ((fun l => kof p <L$> l) <L$> ls) acc w = run_segments p f ls acc w.
  Proof.
    revert acc w. induction ls as [|l ls IH]; intros acc w; [done|].
    cbn [fmap list_fmap kfolds run_segments]. rewrite kfold_segment.
    destruct (run_segment p f l acc w). apply IH.
  Qed.

  Lemma pipeline_fold {T V R} (p : pipe T V) (f : R -> V -> U -> R * U) (s : stream U T) ls init w :
    NoDup (counters p) -> source s 0 ls ->
    evaluates (fun fuel => fold_with (build p s) init f fuel w) (run_segments p f ls init w).
  Proof.
    intros Hnd Hs. pose proof (build_gacts p s 0 ls Hnd Hs) as Hg.
    destruct (fold_gen_acts f _ _ init w Hg) as [N HN]. exists N. intros k Hk.
    unfold fold_with. rewrite HN by lia. by rewrite kfolds_segments.
  Qed.
  Lemma pipeline_collect {T V} (p : pipe T V) (consume : V -> U -> U) (s : stream U T) ls w :
    NoDup (counters p) -> source s 0 ls ->
    evaluates (fun fuel => collect (build p s) consume fuel w)
              (run_segments p (fun (_ : unit) v u => (tt, consume v u)) ls tt w).2.
  Proof.
    intros Hnd Hs.
    destruct (pipeline_fold p (fun (_ : unit) v u => (tt, consume v u)) s ls tt w Hnd Hs) as [N HN].
    exists N. intros k Hk. specialize (HN k Hk). unfold fold_with in HN. unfold collect. rewrite HN.
    by destruct (run_segments _ _ _ _ _).
  Qed.
End proofs.
