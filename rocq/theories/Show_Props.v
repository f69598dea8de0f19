(** C68: String; C69: the comparator of a container. *)
From Coq Require Import String.
From stdpp Require Import functions.
From Verif Require Import Base Iter_Model Iter_Spec Show_Model.
From Verif Require RBTree_Model RBTree_Spec RBTree_Props RBTree_Proofs10 RBTree_Proofs11 SkipList_Model SkipList_Spec SkipList_Proofs SkipList_Proofs4 SkipList_Proofs5 SkipList_Props.
Open Scope string_scope.

(** the text of a list of entries: the entries k:v separated by single spaces, between brackets *)
Definition rendered {K V} (showk : K -> string) (showv : V -> string) (m : list (K * V)) : string :=
  "[" ++ String.concat " " (map (fun e => showk e.1 ++ ":" ++ showv e.2) m) ++ "]".

Local Lemma app_assoc_s (a b c : string) : (a ++ b) ++ c = a ++ (b ++ c).
Proof. induction a as [|x a IH]; [done|]. exact (f_equal (String x) IH). Qed.

Local Lemma show_loop_ok {K V N} (showk : K -> string) (showv : V -> string) (kv : N -> K * V) (next : N -> res (option N)) m :
  forall p fuel buf,
  drains (fun p => match p with Some l => let! n := next l in Ok (Some (kv l), n) | None => Ok (None, None) end) p m None ->
  length m < fuel ->
  show_loop showk showv fuel kv next p buf =
    Ok (buf ++ String.concat " " (map (fun e => showk e.1 ++ ":" ++ showv e.2) m) ++ "]").
Proof.
  set (it := fun p => _).
  assert (HE : forall p s, it p = Ok (None, s) -> p = None).
  { intros [l|] s H; [|done]. unfold it in H. cbn in H. destruct (next l); discriminate H. }
  induction m as [|e m IH]; intros p fuel buf (s1 & HP & H1) Hf.
  - inversion HP; subst. apply HE in H1 as ->. destruct fuel; [lia|]. done.
  - inversion HP as [|? s2 ? ? ? EP HP2]; subst. destruct p as [l|]; [|discriminate EP].
    unfold it in EP. cbn in EP. destruct (next l) as [nx| |] eqn:EN; [|discriminate EP..]. injection EP as <- <-.
    destruct fuel as [|fuel]; [cbn in Hf; lia|]. cbn [show_loop]. rewrite EN. cbn [rbind].
    cbn [length] in Hf. rewrite (IH nx fuel) by (try lia; by exists s1). f_equal. unfold show_kv.
    destruct nx as [l2|].
    + destruct m as [|e2 m]; [inversion HP2; subst; by apply HE in H1|]. cbn [map String.concat]. by rewrite !app_assoc_s.
    + inversion HP2 as [|? ? ? ? ? EP2 ?]; subst; [|discriminate EP2]. cbn [map String.concat]. by rewrite !app_assoc_s.
Qed.

(** C68: in every reachable state of a skip list String returns, and its text is that of the entries
    that the history leaves in the list (C40), in their order *)
Theorem C68_skiplist_string :
  forall (K V : Type) (kzero : K) (vzero : V) (comp : K -> K -> Z) (showk : K -> string) (showv : V -> string) os fuel,
  length os < fuel ->
  exists rs s m, SkipList_Model.run kzero vzero comp fuel (SkipList_Model.new_list kzero vzero) os = Ok (rs, s) /\
    SkipList_Spec.seq_run comp [] os rs m /\ sl_string showk showv fuel s = Ok (rendered showk showv m).
Proof.
  intros K V kz vz comp showk showv os fuel Hf.
  destruct (SkipList_Proofs4.run_new comp kz vz os fuel Hf) as (rs & s & ns & E & HR & HZ & HL & HS).
  exists rs, s, (SkipList_Proofs.ents s ns). split; [done|]. split; [done|].
  pose proof (SkipList_Proofs5.shows_ok vz s ns fuel HR ltac:(lia) (proj2 HZ)) as (ns2 & EE & _ & HF & HT & HN & (st & HD) & _).
  unfold sl_string, rendered. apply show_loop_ok.
  - destruct HD as (s1 & HP & H1). exists s1. split; [exact HP|]. destruct s1; [|by injection H1 as <-].
    cbn in H1. destruct (SkipList_Model.rd_fwd _ _ _); discriminate H1.
  - unfold SkipList_Proofs.ents. rewrite fmap_length. lia.
Qed.
Print Assumptions C68_skiplist_string.

(** C68: the same for the red-black tree under the conditions under which its iterator works (C38),
    as long as the tree is not empty *)
Theorem C68_rbtree_string :
  forall (K V : Type) (kzero : K) (vzero : V) (comp : K -> K -> Z) (showk : K -> string) (showv : V -> string),
  cmp_ok comp -> cmp_unit comp ->
  forall os fuel, RBTree_Spec.allowed vzero comp (fun m o => RBTree_Spec.ascending comp m o /\ RBTree_Spec.keeps_min comp kzero m o) [] os ->
  length os + 2 <= fuel ->
  exists rs t m, RBTree_Model.run vzero comp fuel (RBTree_Model.new_tree kzero vzero) os = Ok (rs, t) /\
    RBTree_Spec.map_run vzero comp [] os rs m /\ RBTree_Spec.sorted comp m /\
    (m <> [] -> rb_string showk showv fuel t = Ok (rendered showk showv m)).
Proof.
  intros K V kzero vzero comp showk showv Hc Hu os fuel HA Hf.
  destruct (RBTree_Props.C38_iteration_in_order K V kzero vzero comp Hc Hu os fuel HA Hf) as (rs & t & m & E & HM & HS & HD).
  exists rs, t, m. split; [done|]. split; [done|]. split; [done|]. intros HN. destruct (HD HN) as [HD1 _].
  unfold rb_string, rendered. apply show_loop_ok; [exact HD1|].
  pose proof (RBTree_Proofs11.map_run_len vzero comp [] os rs m HM). cbn [length] in *. lia.
Qed.
Print Assumptions C68_rbtree_string.

(** C68: on a new tree and on any cleared tree String does not return, however long it runs *)
Theorem C68_string_of_an_empty_tree_hangs :
  forall (K V : Type) (kzero : K) (vzero : V) (showk : K -> string) (showv : V -> string) (t : RBTree_Model.tree K V) fuel,
  rb_string showk showv fuel (RBTree_Model.new_tree kzero vzero) = Fuel /\
  rb_string showk showv fuel (RBTree_Model.clear t) = Fuel.
Proof.
  intros K V kz vz showk showv t fuel.
  destruct (RBTree_Props.C38_iter_of_an_empty_tree_hangs K V kz vz t fuel) as [H1 H2].
  assert (G : forall t' l, RBTree_Model.left_most t' = Some l -> RBTree_Model.iter_next fuel t' (RBTree_Model.left_most t') = Fuel ->
    rb_string showk showv fuel t' = Fuel).
  { intros t' l El HI. unfold rb_string. rewrite El in *. destruct fuel as [|f]; [done|]. cbn [show_loop].
    unfold RBTree_Model.iter_next in HI. by destruct (RBTree_Model.next (S f) (RBTree_Model.hp t') l). }
  split; (eapply G; [|done]); unfold RBTree_Model.left_most, RBTree_Model.new_tree, RBTree_Model.clear; cbn [RBTree_Model.hp];
    by rewrite fn_lookup_insert.
Qed.
Print Assumptions C68_string_of_an_empty_tree_hangs.

(** C68: without the restriction on deletions the text can show a deleted entry *)
Theorem C68_string_after_any_deletion_refuted :
  exists rs t, RBTree_Model.run 0%Z Zcomp 20 (RBTree_Model.new_tree 0 0)%Z
      [RBTree_Model.OPut 1 10; RBTree_Model.OPut 2 20; RBTree_Model.ODelete 1]%Z = Ok (rs, t) /\
    RBTree_Model.has Zcomp 20 t 1%Z = Ok false /\
    rb_string (fun k => if (k =? 1)%Z then "one" else "two") (fun v => if (v =? 10)%Z then "ten" else "twenty") 20 t = Ok "[one:ten two:twenty]".
Proof.
  eexists _, _. split; [by vm_compute|]. by vm_compute.
Qed.
Print Assumptions C68_string_after_any_deletion_refuted.

(** C69: the comparator a container works with is the first non-nil one given to it since the last
    Init: SetCompareFunc never replaces a comparator, and Clear keeps it *)
Definition first_some {C} (cs : list (option C)) : option C :=
  match filter (fun c => is_Some c) cs with c :: _ => c | [] => None end.
Theorem C69_comparator_is_the_first_given :
  forall (C : Type) (c0 : option C) (os : list (cop C)), Forall (fun o => match o with CInit _ => False | _ => True end) os ->
  fold_left cop_step os c0 = first_some (c0 :: omap (fun o => match o with CSet c => Some c | _ => None end) os).
Proof.
  intros C c0 os H. revert c0. induction H as [|o os Ho H IH]; intros c0.
  - destruct c0; [done|]. done.
  - cbn [fold_left]. rewrite IH. destruct o as [c| |c]; cbn [cop_step omap list_omap]; [|done|done].
    unfold first_some, set_compare. destruct c0 as [c1|].
    + by rewrite !(filter_cons_True _ (Some c1)) by done.
    + rewrite (filter_cons_False _ None); [done|]. by intros [].
Qed.
Print Assumptions C69_comparator_is_the_first_given.

(** * the hypotheses are met *)
Local Lemma ok_ex {A B} (m : res (A * B)) (P : A -> B -> Prop) :
  match m with Ok (a, b) => P a b | _ => False end -> exists a b, m = Ok (a, b) /\ P a b.
Proof. destruct m as [[a b]| |]; [|done|done]. intros H. by exists a, b. Qed.

Example C68_skip_example :
  exists rs s, SkipList_Model.run 0%Z 0%Z Zcomp 20 (SkipList_Model.new_list 0 0)%Z
      [SkipList_Model.OInsertUnique 3 30 7; SkipList_Model.OInsertUnique 2 20 99; SkipList_Model.OSetValue 0 21]%Z = Ok (rs, s) /\
    sl_string (fun k => if (k =? 2)%Z then "two" else "three") (fun v => if (v =? 21)%Z then "x" else "y") 20 s = Ok "[two:x three:y]".
Proof. apply ok_ex. by vm_compute. Qed.
Example C68_new_list_example : sl_string (fun _ : Z => "k") (fun _ : Z => "v") 5 (SkipList_Model.new_list 0 0)%Z = Ok "[]".
Proof. by vm_compute. Qed.
Example C68_tree_example :
  exists rs t, RBTree_Model.run 0%Z Zcomp 20 (RBTree_Model.new_tree 0 0)%Z
      [RBTree_Model.OPut 1 10; RBTree_Model.OPut 2 20]%Z = Ok (rs, t) /\
    rb_string (fun k => if (k =? 1)%Z then "one" else "two") (fun v => if (v =? 10)%Z then "ten" else "twenty") 20 t = Ok "[one:ten two:twenty]".
Proof. apply ok_ex. by vm_compute. Qed.
Example C69_example : fold_left cop_step [CSet None; CClear; CSet (Some 1); CSet (Some 2); CClear] None = Some 1.
Proof. done. Qed.
