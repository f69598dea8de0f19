(** Proofs for C74: histories of the skip list with abandoned calls. *)
From Verif Require Import Base Iter_Model Iter_Spec SkipList_Model SkipList_Spec SkipList_Proofs SkipList_Proofs2 SkipList_Proofs3 SkipList_Proofs4.
From Verif Require Import PanicComp_Model PanicCompSL_Model PanicComp_Spec PanicCompSL_Spec PanicComp_Proofs PanicCompSL_Proofs.

Section sl.
  Context {K V : Type} (kzero : K) (vzero : V) (comp : K -> K -> Z).
  Implicit Types s : slist K V.

  Lemma sl_step_lost fuel s ns o n s' : repr s ns -> zero_hdr kzero vzero s -> length ns < fuel ->
    sl_step_c vzero comp kzero fuel s o n = Crash s' ->
    exists ns', repr s' ns' /\ zero_hdr kzero vzero s' /\ length ns' <= length ns /\
      lost_spec comp (ents s ns) o (ents s' ns').
  Proof.
    intros HR HZ Hf H.
    destruct o as [k v u|k v u|k|ks|k v vc|mi ma| |i v]; cbn [sl_step_c lost_spec] in *.
    - apply bind_crash in H as [H|([b s1] & n1 & _ & H)]; [|discriminate]. apply ab_sl_insert in H as <-. by exists ns.
    - apply bind_crash in H as [H|([b s1] & n1 & _ & H)]; [|discriminate]. apply ab_sl_insert in H as <-. by exists ns.
    - apply bind_crash in H as [H|([b s1] & n1 & _ & H)]; [|discriminate]. apply ab_sl_delete in H as <-. by exists ns.
    - apply bind_crash in H as [H|([b s1] & n1 & _ & H)]; [|discriminate].
      destruct (ab_sl_delete_keys kzero comp fuel ks s _ _ H) as (j & z & Hj & E).
      destruct (delete_keys_ok comp (take j ks) s ns fuel HR Hf) as (b & s1 & ns1 & E' & HR1 & HL1 & HZ1 & HS1).
      rewrite E in E'. injection E' as <- <-. exists ns1. splits; [done|by apply HZ1|done|]. by exists j, z.
    - apply bind_crash in H as [H|([b s1] & n1 & _ & H)]; [|discriminate].
      assert (s' = s) as ->; [|by exists ns].
      unfold sl_delete_whole_c in H. apply bind_crash in H as [H|([[x|] r] & n1 & _ & H)].
      + by apply ab_sl_search in H.
      + apply bind_crash in H as [H|(c & n3 & _ & H)]; [by destruct n1; inversion H|].
        destruct (decide _); [|discriminate]. apply bind_crash in H as [H|([b s1] & n2 & _ & H)]; [|discriminate].
        by apply ab_sl_delete in H.
      + discriminate.
    - apply bind_crash in H as [H|([b s1] & n1 & _ & H)]; [|discriminate].
      apply (ab_range kzero comp fuel s ns) in H as [->|(A & M & R & -> & HR' & Hh & HK & HM & H2 & H3)]; [|..|done|done].
      + exists ns. splits; try done. by left.
      + exists (A ++ R). splits; [done| |rewrite !app_length; lia|].
        { unfold zero_hdr. rewrite Hh. by destruct (HK (hdr s)) as [-> ->]. }
        right. exists (ents s A), (ents s M), (ents s R). rewrite !ents_app. splits.
        * done.
        * by rewrite (ents_ext s s' A), (ents_ext s s' R).
        * apply Forall_fmap. eapply Forall_impl; [exact HM|]. done.
        * by apply after_last.
        * rewrite <- ents_app. by apply stops_head.
    - discriminate.
    - cbn in H. discriminate.
  Qed.

  Lemma sl_step_c_ok fuel s ns o n : repr s ns -> zero_hdr kzero vzero s -> length ns < fuel ->
    match sl_step_c vzero comp kzero fuel s o n with
    | Done r _ => exists ns', repr r.2 ns' /\ zero_hdr kzero vzero r.2 /\ length ns' <= S (length ns) /\
        op_spec comp (ents s ns) o r.1 (ents r.2 ns')
    | Crash s' => exists ns', repr s' ns' /\ zero_hdr kzero vzero s' /\ length ns' <= S (length ns) /\
        lost_spec comp (ents s ns) o (ents s' ns')
    | _ => False
    end.
  Proof.
    intros HR HZ Hf. destruct (step_ok comp kzero vzero s ns o fuel HR HZ Hf) as (r & s1 & ns1 & E & HR1 & HZ1 & HL1 & HS1).
    destruct (rec_sl_step kzero vzero comp fuel s o) as (k & H1 & H2).
    destruct (decide (n < k)) as [Hn|Hn].
    - destruct (H1 n Hn) as [s' Es]. rewrite Es.
      destruct (sl_step_lost fuel s ns o n s' HR HZ Hf Es) as (ns' & A & B & C & D). exists ns'. splits; [done|done|lia|done].
    - specialize (H2 (n - k)). replace (k + (n - k)) with n in H2 by lia. rewrite H2, E. cbn [cl fst snd]. by exists ns1.
  Qed.

  Lemma sl_run_c_ok os : forall s ns fuel, repr s ns -> zero_hdr kzero vzero s -> length os + length ns < fuel ->
    exists rs s' ns', sl_run_c vzero comp kzero fuel s os = Ok (rs, s') /\ repr s' ns' /\ zero_hdr kzero vzero s' /\
      length ns' <= length os + length ns /\ seq_run_c comp (ents s ns) os.*1 rs (ents s' ns').
  Proof.
    induction os as [|[o n] os IH]; intros s ns fuel HR HZ Hf; cbn [sl_run_c length].
    - exists [], s, ns. splits; [done|done|done|lia|constructor].
    - cbn in Hf. pose proof (sl_step_c_ok fuel s ns o n HR HZ ltac:(lia)) as H.
      destruct (sl_step_c _ _ _ _ _ _ _) as [[r s1] n1|s1| |]; [..|done|done]; cbn [fst snd] in *;
        destruct H as (ns1 & HR1 & HZ1 & HL1 & HS1);
        destruct (IH s1 ns1 fuel HR1 HZ1 ltac:(lia)) as (rs & s2 & ns2 & -> & HR2 & HZ2 & HL2 & HS2); cbn [rbind fst snd];
        eexists _, _, _; (split; [done|]; split; [done|]; split; [done|]; split; [lia|]); cbn [fmap list_fmap fst].
      + eapply SeqCDone; done.
      + eapply SeqCLost; done.
  Qed.
  Lemma sl_run_c_new os fuel : length os < fuel ->
    exists rs s ns, sl_run_c vzero comp kzero fuel (new_list kzero vzero) os = Ok (rs, s) /\ repr s ns /\ zero_hdr kzero vzero s /\
      length ns <= length os /\ seq_run_c comp [] os.*1 rs (ents s ns).
  Proof.
    intros Hf. destruct (sl_run_c_ok os (new_list kzero vzero) [] fuel) as (rs & s & ns & H1 & H2 & H3 & H4 & H5).
    - apply repr_init. exact comp.
    - unfold zero_hdr, new_list, init. cbn. by rewrite fn_lookup_insert.
    - cbn. lia.
    - exists rs, s, ns. cbn in H4. split; [done|]. split; [done|]. split; [done|]. split; [lia|done].
  Qed.
End sl.
