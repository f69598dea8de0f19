(** Proofs for C74: the red-black tree as a map, with abandoned calls. *)
From Verif Require Import Base RBTree_Model RBTree_Spec RBTree_Proofs RBTree_Proofs7 RBTree_Proofs8 RBTree_Proofs9 RBTree_Proofs10.
From Verif Require Import PanicComp_Model PanicComp_Spec PanicCompRB_Model PanicCompRB_Spec PanicComp_Proofs PanicCompRB_Proofs.

Section rb.
  Context {K V : Type} (kzero : K) (vzero : V) (comp : K -> K -> Z) (Hc : cmp_ok comp) (Hu : cmp_unit comp).

  Lemma erases_le m (ks : list K) : length (erases comp m ks : list (K * V)) <= length m.
  Proof.
    revert m. induction ks as [|k ks IH]; intros m; cbn; [lia|]. unfold erases in IH. etransitivity; [apply IH|]. apply filter_length.
  Qed.

  Lemma sinv_step_c own t bt m o n fuel : sinv kzero comp own t bt m -> ascending comp m o -> length m + 2 <= fuel ->
    match rb_step_c vzero comp fuel t o n with
    | Done r _ => exists bt' m' own', map_step vzero comp m o r.1 m' /\ sinv kzero comp own' r.2 bt' m' /\ length m' <= S (length m)
    | Crash t' => exists bt' m' own', lost_map comp m o m' /\ sinv kzero comp own' t' bt' m' /\ length m' <= S (length m)
    | _ => False
    end.
  Proof.
    intros I HA Hf.
    destruct (sinv_step kzero vzero comp Hc Hu own t bt m o fuel I HA Hf) as (r & t' & bt' & m' & own' & E & HM & I' & _ & _ & Hl).
    destruct (rec_rb_step vzero comp fuel t o) as (k & H1 & H2).
    destruct (decide (n < k)) as [Hn|Hn].
    - destruct (H1 n Hn) as [t1 Es]. rewrite Es.
      destruct (rb_step_lost vzero comp fuel t o n t1 Es) as [[Ho ->]|(ks & j & z & -> & Hj & ED)].
      + exists bt, m, own. split; [|split; [done|lia]].
        destruct o as [k0 v|nd|k0 v|nd k0 v|k0|k0| |k0|ks|k0 v vc|]; cbn in HA; try done; try (by destruct (Ho ks)); cbn in Es; discriminate.
      + assert (Hlen : length (locs bt) = length m) by (rewrite <- (s_entries _ _ _ _ _ _ I); unfold locs, entries; by rewrite !fmap_length).
        destruct (sinv_delete_keys kzero comp Hc Hu own (take j ks) t bt m fuel I ltac:(lia)) as (t2 & bt2 & ED2 & I2 & _).
        rewrite ED in ED2. injection ED2 as -> ->. exists bt2, (erases comp m (take j ks)), own.
        split; [by exists j|]. split; [done|]. pose proof (erases_le m (take j ks)). lia.
    - specialize (H2 (n - k)). replace (k + (n - k)) with n in H2 by lia. rewrite H2, E. cbn [cl fst snd]. by exists bt', m', own'.
  Qed.

  Lemma sinv_run_c (P : list (K * V) -> op K V -> Prop) os : forall own t bt m fuel, (forall m o, P m o -> ascending comp m o) ->
    sinv kzero comp own t bt m -> allowed_c vzero comp P m os.*1 -> length m + length os + 2 <= fuel ->
    exists rs t' bt' m' own', rb_run_c vzero comp fuel t os = Ok (rs, t') /\ map_run_c vzero comp m os.*1 rs m' /\ sinv kzero comp own' t' bt' m'.
  Proof.
    induction os as [|[o n] os IH]; intros own t bt m fuel HP I HA Hf; cbn [rb_run_c].
    { exists [], t, bt, m, own. split; [done|]. split; [constructor|done]. }
    cbn [fmap list_fmap fst allowed_c] in HA. destruct HA as (HA & HD & HL). cbn [length] in Hf.
    pose proof (sinv_step_c own t bt m o n fuel I (HP _ _ HA) ltac:(lia)) as HS.
    destruct (rb_step_c _ _ _ _ _ _) as [[r t1] n1|t1| |]; [..|done|done]; cbn [fst snd] in *;
      destruct HS as (bt1 & m1 & own1 & HS & I1 & Hl).
    - destruct (IH own1 t1 bt1 m1 fuel HP I1 (HD _ _ HS) ltac:(lia)) as (rs & t2 & bt2 & m2 & own2 & -> & HR & I2).
      cbn [rbind fst snd]. eexists _, _, bt2, m2, own2. split; [done|]. split; [|done]. cbn. eapply mapc_done; done.
    - destruct (IH own1 t1 bt1 m1 fuel HP I1 (HL _ HS) ltac:(lia)) as (rs & t2 & bt2 & m2 & own2 & -> & HR & I2).
      cbn [rbind fst snd]. eexists _, _, bt2, m2, own2. split; [done|]. split; [|done]. cbn. eapply mapc_lost; done.
  Qed.
End rb.
