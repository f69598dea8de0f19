(** Property theorems for C72: comparator calls of the skip list. *)
From Verif Require Import Base Iter_Model Iter_Spec SkipList_Model SkipList_Spec SkipList_Proofs SkipList_Proofs4.
From Verif Require Import PanicComp_Model PanicCompSL_Model PanicComp_Spec PanicComp_Proofs PanicCompSL_Proofs SLCost_Proofs.

(** the functions of PanicCompSL_Model are those of SkipList_Model (C74), with an
    allowance of comparator answers: a call makes exactly [c] comparator calls if
    with fewer it is cut short and with [c + j] it returns with [j] left *)
Definition comparator_calls {S A} (m : cm S A) (c : nat) (a : A) : Prop :=
  (forall j, j < c -> exists s, m j = Crash s) /\ forall j, m (c + j) = Done a j.

(** Has, Get and Rank make at most Size + 64 comparator calls, whatever the
    history, the heights drawn and the comparator's answers: every element is
    compared at most once on the way, and two more on each of at most 32 levels *)
Theorem C72_skiplist_lookup_calls :
  forall (K V : Type) (kzero : K) (vzero : V) (comp : K -> K -> Z) os fuel rs s k, length os < fuel ->
  run kzero vzero comp fuel (new_list kzero vzero) os = Ok (rs, s) ->
  (exists b c, comparator_calls (sl_has_c comp fuel s k) c b /\ has comp fuel s k = Ok b /\ (Z.of_nat c <= size s + 64)%Z) /\
  (exists v c, comparator_calls (sl_get_c vzero comp fuel s k) c v /\ get vzero comp fuel s k = Ok v /\ (Z.of_nat c <= size s + 64)%Z) /\
  (exists r c, comparator_calls (sl_rank_c comp fuel s k) c r /\ rank comp fuel s k = Ok r /\ (Z.of_nat c <= size s + 64)%Z).
Proof.
  intros K V kz vz comp os fuel rs s k Hf E. destruct (run_new comp kz vz os fuel Hf) as (rs' & s' & ns & E' & HR & HZ & HL & HS).
  rewrite E in E'. injection E' as <- <-. pose proof (r_lv _ _ HR) as HLv. unfold max_level in HLv. rewrite (r_size _ _ HR).
  assert (B : forall A (f : option nat * Z -> cm (slist K V) A), (forall a, exists b, f a = cret b) -> atmost (cbnd (sl_search_c comp fuel s k) f) (length ns + 64)).
  { intros A f H. rewrite <- (Nat.add_0_r (length ns + 64)). apply am_bind; [eapply am_mono; [apply (am_search comp s ns); [done|lia]|lia]|].
    intros a _ _ _. destruct (H a) as [b ->]. apply am_ret. }
  destruct (search_ok comp s ns k fuel HR ltac:(lia)) as (o & z & Es & _). splits.
  - destruct (counted (sl_has_c comp fuel s k) (has comp fuel s k) (match o with Some _ => true | None => false end) (length ns + 64)) as (c & L & H1 & H2).
    + apply rec_sl_has. + unfold has. by rewrite Es. + apply B. intros []; by eexists.
    + eexists _, c. split; [by split|]. split; [unfold has; by rewrite Es|lia].
  - destruct (counted (sl_get_c vz comp fuel s k) (get vz comp fuel s k) (match o with Some x => val (hp s x) | None => vz end) (length ns + 64)) as (c & L & H1 & H2).
    + apply rec_sl_get. + unfold get. by rewrite Es. + apply B. intros []; by eexists.
    + eexists _, c. split; [by split|]. split; [unfold get; by rewrite Es|lia].
  - destruct (counted (sl_rank_c comp fuel s k) (rank comp fuel s k) (match o with Some _ => z | None => 0%Z end) (length ns + 64)) as (c & L & H1 & H2).
    + apply rec_sl_rank. + unfold rank. by rewrite Es. + apply B. intros []; by eexists.
    + eexists _, c. split; [by split|]. split; [unfold rank; by rewrite Es|lia].
Qed.
Print Assumptions C72_skiplist_lookup_calls.

(** The calls that change the list: with n elements at most n + 33 for an
    insertion or a Delete, as many for each key of DeleteKeys, n + 32 for
    DeleteRangeByKey however many elements it removes *)
Theorem C72_skiplist_update_calls :
  forall (K V : Type) (kzero : K) (vzero : V) (comp : K -> K -> Z) os fuel rs s o, length os < fuel ->
  run kzero vzero comp fuel (new_list kzero vzero) os = Ok (rs, s) ->
  exists r s' c, comparator_calls (sl_step_c vzero comp kzero fuel s o) c (r, s') /\ step kzero vzero comp fuel s o = Ok (r, s') /\
    c <= let n := Z.to_nat (size s) in
      match o with
      | OInsertUnique _ _ _ | OInsertEquals _ _ _ | ODelete _ => n + 33
      | ODeleteKeys ks => length ks * (n + 33)
      | ODeleteWhole _ _ _ => 2 * n + 98
      | ODeleteRange _ _ => n + 32
      | OClear | OSetValue _ _ => 0
      end.
Proof.
  intros K V kz vz comp os fuel rs s o Hf E. destruct (run_new comp kz vz os fuel Hf) as (rs' & s' & ns & E' & HR & HZ & HL & HS).
  rewrite E in E'. injection E' as <- <-. rewrite (r_size _ _ HR), Nat2Z.id.
  destruct (step_ok comp kz vz s ns o fuel HR HZ ltac:(lia)) as (r & s' & ns' & Es & _).
  destruct (counted _ _ _ _ (rec_sl_step kz vz comp fuel s o) Es (am_step kz vz comp s ns fuel o HR ltac:(lia))) as (c & L & H1 & H2).
  exists r, s', c. split; [by split|]. split; [done|]. destruct o; cbn in *; lia.
Qed.
Print Assumptions C72_skiplist_update_calls.

(** Nothing better than linear holds for every sequence of draws: for every n
    there is a history of n insertions, of falling keys all drawing height 1,
    after which a lookup makes n + 1 calls *)
Theorem C72_skiplist_lookups_are_logarithmic_refuted :
  forall n fuel, n < fuel -> exists os rs s, length os = n /\
    run 0%Z 0%Z Zcomp fuel (new_list 0 0)%Z os = Ok (rs, s) /\ size s = Z.of_nat n /\
    comparator_calls (sl_has_c Zcomp fuel s 1%Z) (n + 1) false.
Proof.
  intros n fuel Hf. pose (os := (fun i : nat => OInsertUnique (- Z.of_nat i)%Z 0%Z 4294967294%Z) <$> seq 1 n : list (op Z Z)).
  assert (L : length os = n) by (unfold os; by rewrite fmap_length, seq_length).
  destruct (flat_run 0%Z 0%Z Zcomp (fun k => (k <= 0)%Z) os (new_list 0 0)%Z [] fuel) as (rs & s & ns & E & HR & [Z1 Z2] & HL & HP & Hn).
  - unfold os. apply Forall_fmap, Forall_forall. intros i _. cbn. split; [lia|by vm_compute].
  - exact (repr_init Zcomp _ _ _ _).
  - by vm_compute.
  - done.
  - constructor.
  - cbn. lia.
  - exists os, rs, s. rewrite Nat.add_0_r, L in Hn. splits; [done|done|by rewrite (r_size _ _ HR), Hn|].
    rewrite <- Hn. assert (U : uses (sl_has_c Zcomp fuel s 1%Z) (length ns + 1) false).
    { apply flat_has; [done|done|lia|]. constructor; [by rewrite Z1|]. eapply Forall_impl; [exact HP|]. cbn. intros l Hl. unfold Zcomp.
      destruct (key (hp s l)); cbn in *; try done. }
    split; [|exact U]. by destruct (uses_exact _ _ _ _ U (rec_sl_has Zcomp fuel s 1%Z)).
Qed.
Print Assumptions C72_skiplist_lookups_are_logarithmic_refuted.

(** a concrete list with towers of height 1 and 2: 3 elements, calls made by Has *)
Example slcost_example : exists rs s, run 0%Z 0%Z Zcomp 20 (new_list 0 0)%Z [OInsertUnique 9 90 4294967294; OInsertUnique 5 50 2147483646; OInsertUnique 1 10 4294967294]%Z = Ok (rs, s) /\
  level s = 2 /\ sl_has_c Zcomp 20 s 9%Z 4 = Done true 0 /\ sl_has_c Zcomp 20 s 9%Z 3 = Crash s.
Proof.
  destruct (run 0%Z 0%Z Zcomp 20 (new_list 0 0)%Z [OInsertUnique 9 90 4294967294; OInsertUnique 5 50 2147483646; OInsertUnique 1 10 4294967294]%Z) as [[rs s]| |] eqn:E; [|by vm_compute in E..].
  exists rs, s. split; [done|]. vm_compute in E. injection E as <- <-. by vm_compute.
Qed.
