From stdpp Require Import functions.
From Verif Require Import Base SkipList_Model SkipList_Spec SkipList_Proofs SkipList_Proofs2 SkipList_Proofs3 SkipList_Proofs4.
From Verif Require PQ_Model.
From Verif Require Import Keep_Spec Keep_Proofs2.

(** * The skip list *)
Section skip.
  Context {K V : Type}.
  Implicit Types (s : @slist K V) (ns : list nat).

  Lemma nx_in H i L y d : nx H i L = (Some y, d) -> y ∈ L.
  Proof. intros E. apply nx_some in E as (P & Q & -> & _). apply elem_of_app. right. left. Qed.
  Lemma skip_kept s ns : repr s ns -> forall l, kept (skip_root s) (skip_edge s) l <-> l = hdr s \/ l ∈ ns.
  Proof.
    intros HR l. rewrite <- elem_of_cons. split.
    - revert l. apply kept_ind_set.
      + intros l [->|Hl]; [left|]. rewrite (r_tail _ _ HR) in Hl. apply last_Some_elem_of in Hl. by right.
      + intros a b Ha [Hb|(i & Hi & Hb)].
        * apply elem_of_cons in Ha as [->|Ha]; [by rewrite (r_hback _ _ HR) in Hb|].
          apply elem_of_list_split in Ha as (C & R & EN). rewrite (r_back _ _ HR C a R EN) in Hb.
          apply last_Some_elem_of in Hb. right. rewrite EN. apply elem_of_app. by left.
        * assert (Hlv : i < level s \/ (level s <= i /\ a = hdr s)).
          { apply elem_of_cons in Ha as [->|Ha]; [destruct (decide (i < level s)); [by left|right; split; [lia|done]]|].
            pose proof (r_ht _ _ HR) as F. rewrite Forall_forall in F. apply F in Ha. left. lia. }
          destruct Hlv as [Hlv|[Hlv ->]]; [|by rewrite (r_top _ _ HR i Hlv) in Hb].
          apply elem_of_list_split in Ha as (C & R & EN).
          pose proof (r_links _ _ HR C a R EN i Hi Hlv) as L. rewrite Hb in L. symmetry in L. apply nx_in in L.
          rewrite EN. apply elem_of_app. right. by right.
    - assert (G : forall R C x, hdr s :: ns = C ++ x :: R -> kept (skip_root s) (skip_edge s) x ->
        forall y, y ∈ x :: R -> kept (skip_root s) (skip_edge s) y).
      { induction R as [|z R IH]; intros C x EN Hx y Hy; apply elem_of_cons in Hy as [->|Hy]; [done|by apply elem_of_nil in Hy|done|].
        apply (IH (C ++ [x]) z); [by rewrite <- app_assoc| |done].
        eapply kept_edge; [exact Hx|]. right. exists 0.
        assert (Hx0 : 0 < ht (hp s x)).
        { assert (Hin : x ∈ hdr s :: ns) by (rewrite EN; apply elem_of_app; right; left).
          pose proof (in_ht s ns HR x Hin). lia. }
        split; [done|]. pose proof (r_lv _ _ HR) as Hlv.
        pose proof (r_links _ _ HR C x (z :: R) EN 0 Hx0 ltac:(lia)) as L. cbn [nx] in L.
        rewrite decide_True in L; [by injection L|].
        assert (Hz : z ∈ hdr s :: ns) by (rewrite EN; apply elem_of_app; right; right; left).
        pose proof (in_ht s ns HR z Hz). lia. }
      intros Hl. apply (G ns [] (hdr s)); [done|by apply kept_root; left|done].
  Qed.
End skip.
