(** The 16-bit hasher (an exhaustive computation over its domain), and floats. *)
From stdpp Require Import pmap.
From Verif Require Import Base Hash_Model Hash_Spec Hash_Proofs Hash_Proofs2.

Local Open Scope Z_scope.

(** distinctness of a list of numbers, decided with a trie *)
Fixpoint distinct (l : list Z) (m : Pmap ()) : bool :=
  match l with
  | [] => true
  | x :: l => let p := Z.to_pos (x + 1) in
      match m !! p with Some _ => false | None => distinct l (<[p := ()]> m) end
  end.
Lemma distinct_ok l m : Forall (fun x => 0 <= x) l -> distinct l m = true ->
  NoDup l /\ Forall (fun x => m !! Z.to_pos (x + 1) = None) l.
Proof.
  revert m. induction l as [|x l IH]; intros m F D; cbn [distinct] in D.
  { split; constructor. }
  apply Forall_cons in F as [Fx F]. cbv zeta in D. destruct (m !! Z.to_pos (x + 1)) eqn:E; [done|].
  destruct (IH _ F D) as [N G]. rewrite Forall_forall in F, G. split.
  - constructor; [|done]. intros Hx. specialize (G x Hx). by rewrite lookup_insert in G.
  - constructor; [done|]. apply Forall_forall. intros y Hy. specialize (G y Hy). specialize (F y Hy).
    rewrite lookup_insert_ne in G; [done|]. intros Eq. rewrite Eq, lookup_insert in G. done.
Qed.

Lemma NoDup_fmap_inj_on {A B} (f : A -> B) (l : list A) x y : NoDup (f <$> l) -> x ∈ l -> y ∈ l -> f x = f y -> x = y.
Proof.
  induction l as [|z l IH]; intros N Hx Hy E; [by apply elem_of_nil in Hx|].
  cbn in N. apply NoDup_cons in N as [N1 N2]. rewrite elem_of_cons in Hx, Hy.
  destruct Hx as [->|Hx], Hy as [->|Hy]; try done.
  - destruct N1. rewrite E. by apply elem_of_list_fmap_1.
  - destruct N1. rewrite <-E. by apply elem_of_list_fmap_1.
  - by apply IH.
Qed.

Definition wa (lo : Z) : Z := mul64 (rotl64 (xor64 (add64 prime5 2) (mul64 lo prime5)) 11) prime1.
Definition wb (hi : Z) : Z := mul64 hi prime5.
Definition wpairs : list ((Z * Z) * (Z * Z)) :=
  let L1 := (fun x => (x, wa x)) <$> seqZ 0 256 in
  let L2 := (fun x => (x, wb x)) <$> seqZ 0 256 in
  concat ((fun p => (fun q => (p, q)) <$> L2) <$> L1).
Definition wmix (p : (Z * Z) * (Z * Z)) : Z := Z.lxor p.1.2 p.2.2.
Lemma wcheck : distinct (wmix <$> wpairs) ∅ = true.
Proof. by vm_compute. Qed.
Lemma wpairs_in lo hi : 0 <= lo < 256 -> 0 <= hi < 256 -> ((lo, wa lo), (hi, wb hi)) ∈ wpairs.
Proof.
  intros Hl Hh. unfold wpairs. apply elem_of_list_In, in_concat.
  exists ((fun q => ((lo, wa lo), q)) <$> ((fun x => (x, wb x)) <$> seqZ 0 256)). split; apply elem_of_list_In.
  - apply elem_of_list_fmap. exists (lo, wa lo). split; [done|]. apply elem_of_list_fmap. exists lo. split; [done|]. apply elem_of_seqZ. lia.
  - apply elem_of_list_fmap. exists (hi, wb hi). split; [done|]. apply elem_of_list_fmap. exists hi. split; [done|]. apply elem_of_seqZ. lia.
Qed.
Lemma wpairs_nonneg : Forall (fun x => 0 <= x) (wmix <$> wpairs).
Proof.
  apply Forall_forall. intros x. intros [[[a A] [b B]] [-> H]]%elem_of_list_fmap. unfold wpairs in H.
  apply elem_of_list_In, in_concat in H as (l & H1 & H2). apply elem_of_list_In in H1, H2.
  apply elem_of_list_fmap in H1 as ([a' A'] & -> & H1). apply elem_of_list_fmap in H2 as (q & [= <- <- <-] & H2).
  apply elem_of_list_fmap in H1 as (? & [= -> ->] & _). apply elem_of_list_fmap in H2 as (? & [= -> ->] & _).
  unfold wmix. cbn [fst snd]. apply R_lxor; apply R_wrap.
Qed.
Lemma wmix_inj lo hi lo' hi' : 0 <= lo < 256 -> 0 <= hi < 256 -> 0 <= lo' < 256 -> 0 <= hi' < 256 ->
  Z.lxor (wa lo) (wb hi) = Z.lxor (wa lo') (wb hi') -> lo = lo' /\ hi = hi'.
Proof.
  intros H1 H2 H3 H4 E. destruct (distinct_ok _ _ wpairs_nonneg wcheck) as [N _].
  pose proof (NoDup_fmap_inj_on wmix wpairs _ _ N (wpairs_in lo hi H1 H2) (wpairs_in lo' hi' H3 H4) E) as [= -> _ -> _]. done.
Qed.
Lemma word_hasher_inj x y : 0 <= x < 2 ^ 16 -> 0 <= y < 2 ^ 16 -> word_hasher x = word_hasher y -> x = y.
Proof.
  intros Hx Hy. unfold word_hasher. cbv zeta.
  assert (L : forall k, Z.land k 255 = k mod 256). { intros k. change 255 with (Z.ones 8). by rewrite Z.land_ones by lia. }
  assert (Q : forall k, 0 <= k < 2 ^ 16 -> Z.land (shr64 k 8) 255 = k / 256).
  { intros k Hk. rewrite L. unfold shr64. rewrite Z.shiftr_div_pow2 by lia.
    apply Z.mod_small. split; [apply Z.div_pos|apply Z.div_lt_upper_bound]; lia. }
  rewrite !Q, !L by done. fold (wa (x mod 256)) (wa (y mod 256)) (wb (x / 256)) (wb (y / 256)).
  rewrite !finish_ok, !step11 by apply R_wrap. intros E.
  apply avalanche_inj in E; [|apply R_mod64..].
  apply (mul_inj _ _ _ _ inv1) in E; [|apply R_rol; [apply R_lxor; apply R_wrap|lia]..].
  apply rol_inj in E; [|lia|apply R_lxor; apply R_wrap..].
  apply wmix_inj in E as [E1 E2]; [|apply Z.mod_pos_bound; lia|split; [apply Z.div_pos|apply Z.div_lt_upper_bound]; lia
    |apply Z.mod_pos_bound; lia|split; [apply Z.div_pos|apply Z.div_lt_upper_bound]; lia].
  rewrite (Z.div_mod x 256), (Z.div_mod y 256) by lia. by rewrite E1, E2.
Qed.
