(** C74: a comparator that panics; the red-black tree. *)
From Verif Require Import Base RBTree_Model RBTree_Spec RBTree_Proofs RBTree_Proofs7 RBTree_Proofs8 RBTree_Proofs9 RBTree_Proofs10.
From Verif Require Import PanicComp_Model PanicComp_Spec PanicCompRB_Model PanicCompRB_Spec PanicComp_Proofs PanicCompRB_Proofs PanicCompRB_Proofs2.

Local Lemma ok_ex {A B} (r : res (A * B)) (P : A -> B -> Prop) :
  match r with Ok (x, y) => P x y | _ => False end -> exists x y, r = Ok (x, y) /\ P x y.
Proof. destruct r as [[x y]| |]; [|done|done]. intros H. by exists x, y. Qed.

(** a comparator that answers often enough: the call is that of the model *)
Theorem C74_rbtree_recovers_the_model {K V} (vzero : V) (comp : K -> K -> Z) fuel (t : tree K V) o :
  recovers (rb_step_c vzero comp fuel t o) (step vzero comp fuel t o).
Proof. apply rec_rb_step. Qed.
Print Assumptions C74_rbtree_recovers_the_model.

(** an abandoned call changes nothing at all, whatever state it starts from and
    whatever the comparator; only DeleteKeys is left half done: as DeleteKeys of
    some of the first keys leaves it.  So every state a history with abandoned
    calls reaches is one a history without them reaches (C36-C39 hold of it). *)
Theorem C74_rbtree_abandoned_calls_change_nothing {K V} (vzero : V) (comp : K -> K -> Z) fuel (t t' : tree K V) o n :
  rb_step_c vzero comp fuel t o n = Crash t' ->
  match o with
  | ODeleteKeys ks => exists j z, j < length ks /\ step vzero comp fuel t (ODeleteKeys (take j ks)) = Ok (RInt z, t')
  | OPut _ _ | OPutNode _ | OGet _ | OHas _ | ODelete _ | ODeleteWhole _ _ _ => t' = t
  | ONewNode _ _ | OSetNode _ _ _ | OSize | OClear => False
  end.
Proof.
  intros H. destruct (rb_step_lost vzero comp fuel t o n t' H) as [[Ho ->]|(ks & j & z & -> & Hj & E)].
  - destruct o as [k v|nd|k v|nd k v|k|k| |k|ks|k v vc|]; try done; try (by destruct (Ho ks)); cbn in H; discriminate.
  - exists j, z. split; [done|]. cbn [step]. by rewrite E.
Qed.
Print Assumptions C74_rbtree_abandoned_calls_change_nothing.

Theorem C74_rbtree_stays_reachable {K V} (kzero : K) (vzero : V) (comp : K -> K -> Z) own fuel (t t' : tree K V) o n :
  reach kzero vzero comp own t -> rb_step_c vzero comp fuel t o n = Crash t' -> reach kzero vzero comp own t'.
Proof.
  intros HR H. destruct (rb_step_lost vzero comp fuel t o n t' H) as [[_ ->]|(ks & j & z & -> & Hj & E)]; [done|].
  apply (reach_step kzero vzero comp own t fuel (ODeleteKeys (take j ks)) (RInt z) t'); [done|done|]. cbn [step]. by rewrite E.
Qed.
Print Assumptions C74_rbtree_stays_reachable.

Theorem C74_rbtree_abandoned_calls_can_be_struck_out {K V} (vzero : V) (comp : K -> K -> Z) fuel (t t' : tree K V) (os : list (op K V * nat)) rs :
  rb_run_c vzero comp fuel t os = Ok (rs, t') ->
  exists os' rs', cut os.*1 rs os' rs' /\ run vzero comp fuel t os' = Ok (rs', t').
Proof. apply rb_run_cut. Qed.
Print Assumptions C74_rbtree_abandoned_calls_can_be_struck_out.

(** with an ordering comparator answering -1, 0, 1 and Puts that bring new maxima
    only (C35): the tree is a map throughout, no call panics by itself or runs
    forever; of an abandoned call there is no trace, but for DeleteKeys *)
Theorem C74_rbtree_map_for_ascending_histories {K V} (kzero : K) (vzero : V) (comp : K -> K -> Z) (os : list (op K V * nat)) fuel :
  cmp_ok comp -> cmp_unit comp -> allowed_c vzero comp (ascending comp) [] os.*1 -> length os + 2 <= fuel ->
  exists rs t m, rb_run_c vzero comp fuel (new_tree kzero vzero) os = Ok (rs, t) /\
    map_run_c vzero comp [] os.*1 rs m /\ sorted comp m.
Proof.
  intros Hc Hu HA Hf.
  destruct (sinv_run_c kzero vzero comp Hc Hu (ascending comp) os [] _ Leaf [] fuel ltac:(done) (sinv_new kzero vzero comp) HA ltac:(simpl; lia))
    as (rs & t & bt & m & own & H1 & H2 & [_ _ H3 _ _]). by exists rs, t, m.
Qed.
Print Assumptions C74_rbtree_map_for_ascending_histories.

(** DeleteKeys really can stop half way *)
Theorem C74_rbtree_delete_keys_is_atomic_refuted :
  exists rs t, rb_run_c 0%Z Zcomp 20 (new_tree 0 0)%Z
    [(OPut 1 10, 9%nat); (OPut 2 20, 9%nat); (OPut 3 30, 9%nat); (ODeleteKeys [3; 1], 5%nat); (OSize, 0%nat); (OHas 3, 9%nat); (OHas 1, 9%nat)]%Z = Ok (rs, t) /\
    rs = [Some (RBool true); Some (RBool true); Some (RBool true); None; Some (RInt 2); Some (RBool false); Some (RBool true)].
Proof. apply ok_ex. by vm_compute. Qed.
Print Assumptions C74_rbtree_delete_keys_is_atomic_refuted.

(** non-vacuity: a history with abandoned calls that keeps to the condition *)
Example C74_rbtree_example :
  let os := [(OPut 1 10, 9%nat); (OPut 2 20, 0%nat); (OPut 2 21, 9%nat); (OHas 2, 0%nat); (OGet 2, 9%nat); (ODelete 1, 0%nat); (OSize, 0%nat)]%Z in
  allowed_c 0%Z Zcomp (ascending Zcomp) [] os.*1 /\
  exists rs t, rb_run_c 0%Z Zcomp 20 (new_tree 0 0)%Z os = Ok (rs, t) /\
    rs = [Some (RBool true); None; Some (RBool true); None; Some (RVal 21%Z); None; Some (RInt 2)].
Proof.
  cbn zeta. split; [|apply ok_ex; by vm_compute].
  assert (A : forall m : list (Z * Z), Forall (fun e => e.1 <= 2)%Z m ->
    allowed_c 0%Z Zcomp (ascending Zcomp) m [OPut 2 21; OHas 2; OGet 2; ODelete 1; OSize]%Z).
  { intros m Hm. split.
    - cbn. destruct (mem Zcomp m 2%Z) eqn:E; [by left|]. right. apply Forall_forall. intros e He.
      rewrite Forall_forall in Hm. specialize (Hm e He). unfold mem in E. apply bool_decide_eq_false in E.
      assert (e.1 <> 2%Z). { intros E2. apply E, Exists_exists. exists e. split; [done|]. by rewrite E2. }
      unfold Zcomp. repeat case_match; lia.
    - split; intros; repeat (split; [done|split; intros]); done. }
  assert (F : forall m : list (Z * Z), m = [] \/ m = [(1, 10)]%Z ->
    allowed_c 0%Z Zcomp (ascending Zcomp) m [OPut 2 20; OPut 2 21; OHas 2; OGet 2; ODelete 1; OSize]%Z).
  { intros m Hm. split; [|split].
    - cbn. right. destruct Hm as [->| ->]; [constructor|]. by repeat constructor.
    - intros r m' [_ ->]. apply A. destruct Hm as [->| ->]; cbn; repeat constructor; done.
    - intros m' ->. apply A. destruct Hm as [->| ->]; repeat constructor; done. }
  split; [by right|]. split; [intros r m' [_ ->]|intros m' ->]; apply F; [by right|by left].
Qed.
