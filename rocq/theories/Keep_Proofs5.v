From stdpp Require Import functions.
From Verif Require Import Base RBTree_Model RBTree_Spec RBTree_Proofs RBTree_Proofs2 RBTree_Proofs3 RBTree_Proofs4 RBTree_Proofs5
  RBTree_Proofs6 RBTree_Proofs7 RBTree_Proofs8 RBTree_Proofs9 RBTree_Proofs10 RBTree_Proofs11 RBTree_Props.

Lemma freed_kept {K V} (kzero : K) (vzero : V) (comp : K -> K -> Z) own (t t' : tree K V) bt k fuel :
  reach kzero vzero comp own t -> is_tree (hp t) bt -> length (locs bt) + 2 <= fuel ->
  delete_keys comp fuel t [k] = Ok (1%Z, t') ->
  exists l n, find comp fuel t k = Ok (Some l) /\ (n = l \/ next fuel (hp t) l = Ok (Some n)) /\
    ~ linked (hp t') n /\ entry t' n = entry t n /\
    ((exists ls, pooled t' (n :: ls)) \/ lsize (buf t') = 16).
Proof.
  intros HR HT Hf E. destruct (reach_inv kzero vzero comp own t HR) as [bt2 I].
  assert (bt2 = bt) as -> by (by apply (tree_unique (hp t)); [apply (i_tree _ _ _ _ I)|]).
  pose proof (height_locs bt) as Hh. cbn [delete_keys] in E.
  destruct (delete_ok kzero comp own t bt k fuel I ltac:(lia)) as [(C & _ & _ & E2)|(C & c & l & k' & v & a & b & Eb & _ & _ & _ & EF & Ek & HD)].
  { rewrite E2 in E. cbn in E. injection E as E. done. }
  destruct HD as [[_ E2]|[_ (r & t2 & E2 & HRm)]]; [by rewrite E2 in E|]. rewrite E2 in E. cbn in E. injection E as <-.
  destruct (C61_node_returned_by_delete K V kzero vzero comp own t t2 bt k r fuel HR HT Hf E2) as (l' & EF' & Hl & Hent & Hn).
  destruct HRm as (bt' & I' & Hio & _ & Hr & _).
  destruct (inv_free kzero comp own t2 bt' r I') as (I2 & _ & _).
  exists l', r. split; [done|]. split; [destruct Hn as [->|(Hn & _)]; [by left|by right]|].
  split; [rewrite (linked_locs _ _ (i_tree _ _ _ _ I2)); by rewrite <- (linked_locs _ _ (i_tree _ _ _ _ I'))|].
  assert (Ef : entry (free t2 r) r = entry t2 r).
  { unfold free. case_decide; [done|]. unfold entry. cbn. by rewrite fn_lookup_insert. }
  split; [by rewrite Ef|].
  pose proof (i_pool _ _ _ _ I2) as (fl & P1 & P2 & P3 & P4 & P5 & P6).
  unfold free. case_decide as Ed.
  - right. destruct (i_pool _ _ _ _ I') as (fl' & _ & _ & _ & B & _). by rewrite Ed.
  - left. unfold free in P1. rewrite decide_False in P1 by done. cbn in P1.
    destruct fl as [|x fl]; [done|]. pose proof P1 as [Ex _]. injection Ex as <-.
    eexists. exists (r :: fl). split; [by apply chain_free_list|]. cbn. reflexivity.
Qed.
