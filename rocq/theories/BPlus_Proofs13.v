(** LeftMost and RightMost. *)
From Verif Require Import Base BPlus_Model BPlus_Spec BPlus_Proofs BPlus_Proofs2 BPlus_Proofs3 BPlus_Proofs4 BPlus_Proofs5 BPlus_Proofs6 BPlus_Proofs7 BPlus_Proofs8 BPlus_Proofs9 BPlus_Proofs10 BPlus_Proofs11 BPlus_Proofs12.

Section most.
  Context {K V : Type}.
  Implicit Types (t : @tree K V) (w : list (@item K V)).

  Lemma minimum_ok M (h : nat -> @node K V) d : forall fuel l fp w, reads M h d l fp w -> d < fuel ->
    exists x, minimum_loop fuel (Some l) h = Ok (Some x) /\ leaf (h x) = true
      /\ take (num (h x)) (vals (h x)) `prefix_of` entries w
      /\ (d = 0 /\ x = l /\ take (num (h x)) (vals (h x)) = entries w \/ M - 1 <= num (h x) <= length (vals (h x))).
  Proof.
    induction d as [|d IH]; intros [|fuel] l fp w R Hf; [lia| |lia|].
    - destruct R as (nx & es & junk & cs & E & _ & _ & _ & ->). exists l. cbn [minimum_loop deref rbind]. rewrite E. cbn [leaf num vals].
      rewrite take_app, entries_leaf. splits; try done. by left.
    - destruct R as (nx & ks & junk & ts & cj & E & Hk & Ht & _ & _ & _ & -> & F).
      destruct ts as [|c ts]; [done|]. apply Forall_cons in F as [[Hn R] _].
      destruct (IH fuel c.1.1 c.1.2 c.2 R ltac:(lia)) as (x & E1 & E2 & E3 & E4). exists x.
      cbn [minimum_loop deref rbind]. rewrite E. cbn [leaf kids fmap list_fmap app]. unfold aget. cbn [lookup list_lookup deref rbind]. rewrite E1. splits; try done.
      + rewrite entries_weave by (cbn in *; rewrite ?fmap_length; lia). cbn [fmap list_fmap concat]. by apply prefix_app_r.
      + right. destruct E4 as [(-> & -> & E4)|]; [|done]. split; [done|].
        destruct R as (? & es & j & ? & -> & _). cbn. rewrite app_length. lia.
  Qed.
  Lemma maximum_ok M (h : nat -> @node K V) d : forall fuel l fp w, reads M h d l fp w -> d < fuel ->
    exists x, maximum_loop fuel (Some l) h = Ok (Some x) /\ leaf (h x) = true
      /\ take (num (h x)) (vals (h x)) `suffix_of` entries w
      /\ (d = 0 /\ x = l /\ take (num (h x)) (vals (h x)) = entries w \/ M - 1 <= num (h x) <= length (vals (h x))).
  Proof.
    induction d as [|d IH]; intros [|fuel] l fp w R Hf; [lia| |lia|].
    - destruct R as (nx & es & junk & cs & E & _ & _ & _ & ->). exists l. cbn [maximum_loop deref rbind]. rewrite E. cbn [leaf num vals].
      rewrite take_app, entries_leaf. splits; try done. by left.
    - destruct R as (nx & ks & junk & ts & cj & E & Hk & Ht & _ & _ & _ & -> & F).
      destruct ts as [|c ts _] using rev_ind; [done|]. apply Forall_app in F as [_ F]. apply Forall_cons in F as [[Hn R] _].
      rewrite app_length in Ht. cbn in Ht.
      destruct (IH fuel c.1.1 c.1.2 c.2 R ltac:(lia)) as (x & E1 & E2 & E3 & E4). exists x.
      cbn [maximum_loop deref rbind]. rewrite E. cbn [leaf kids num]. unfold aget.
      rewrite fmap_app, <-app_assoc. rewrite lookup_app_r by (rewrite fmap_length; lia). rewrite fmap_length.
      replace (length ks - length ts) with 0 by lia. cbn [fmap list_fmap app lookup list_lookup deref rbind]. rewrite E1. splits; try done.
      + rewrite entries_weave by (rewrite fmap_length, app_length; cbn in *; lia). rewrite !fmap_app, concat_app. cbn. rewrite app_nil_r. by apply suffix_app_r.
      + right. destruct E4 as [(-> & -> & E4)|]; [|done]. split; [done|].
        destruct R as (? & es & j & ? & -> & _). cbn. rewrite app_length. lia.
  Qed.
End most.
