(** Property theorems for collections/slice (C14-C20).

    [wf m s]: the header [s] is meaningful in memory [m].  [contents m s]: the
    elements [s] denotes.  [growcap] is the runtime's choice of capacity. *)
From Verif Require Import Base Slice_Model Slice_Spec Slice_Proofs Slice_Proofs2.

(** C14 *)
Theorem C14_insert :
  forall (T : Type) (zero : T) (m : gmap nat (list T)) (s : slice) (i : Z) (v : slice),
  wf m s -> wf m v -> (0 <= i <= Z.of_nat (len s))%Z ->
  (len s + len v <= cap s -> no_alias s v) ->
  exists s' m', insert zero m s i v = Ok (s', m') /\ wf m' s' /\
    contents m' s' = take (Z.to_nat i) (contents m s) ++ contents m v ++ drop (Z.to_nat i) (contents m s) /\
    (if decide (len s + len v <= cap s)
     then only_window m m' s /\ arr s' = arr s /\ off s' = off s else fresh_result m m' s') /\
    (forall t, wf m t -> wf m' t).
Proof. exact @insert_ok. Qed.
Print Assumptions C14_insert.

Theorem C14_insert_panics :
  forall (T : Type) (zero : T) (m : gmap nat (list T)) (s : slice) (i : Z) (v : slice),
  wf m s -> ~ (0 <= i <= Z.of_nat (len s))%Z -> insert zero m s i v = Panic.
Proof. exact @insert_panic. Qed.
Print Assumptions C14_insert_panics.

Theorem C14_delete :
  forall (T : Type) (zero : T) (growcap : nat -> nat -> nat) (m : gmap nat (list T)) (s : slice) (i j : Z),
  wf m s -> (0 <= i <= j /\ j <= Z.of_nat (len s))%Z ->
  exists s' m', delete zero growcap m s i j = Ok (s', m') /\ wf m' s' /\
    contents m' s' = take (Z.to_nat i) (contents m s) ++ drop (Z.to_nat j) (contents m s) /\
    only_window m m' s /\ arr s' = arr s /\ off s' = off s /\ (forall t, wf m t -> wf m' t).
Proof. exact @delete_ok. Qed.
Print Assumptions C14_delete.

Theorem C14_delete_panics :
  forall (T : Type) (zero : T) (growcap : nat -> nat -> nat) (m : gmap nat (list T)) (s : slice) (i j : Z),
  wf m s -> ~ (0 <= i <= j /\ j <= Z.of_nat (len s))%Z -> delete zero growcap m s i j = Panic.
Proof. exact @delete_panic. Qed.
Print Assumptions C14_delete_panics.

Theorem C14_replace :
  forall (T : Type) (zero : T) (m : gmap nat (list T)) (s : slice) (i j : Z) (v : slice),
  wf m s -> wf m v -> (0 <= i <= j /\ j <= Z.of_nat (len s))%Z ->
  (Z.to_nat i + len v + (len s - Z.to_nat j) <= cap s -> no_alias s v) ->
  exists s' m', replace zero m s i j v = Ok (s', m') /\ wf m' s' /\
    contents m' s' = take (Z.to_nat i) (contents m s) ++ contents m v ++ drop (Z.to_nat j) (contents m s) /\
    (if decide (Z.to_nat i + len v + (len s - Z.to_nat j) <= cap s)
     then only_window m m' s /\ arr s' = arr s /\ off s' = off s else fresh_result m m' s') /\
    (forall t, wf m t -> wf m' t).
Proof. exact @replace_ok. Qed.
Print Assumptions C14_replace.

Theorem C14_replace_panics :
  forall (T : Type) (zero : T) (m : gmap nat (list T)) (s : slice) (i j : Z) (v : slice),
  wf m s -> ~ (0 <= i <= j /\ j <= Z.of_nat (len s))%Z -> replace zero m s i j v = Panic.
Proof. exact @replace_panic. Qed.
Print Assumptions C14_replace_panics.

(** With spare capacity and v inside s, Insert gives wrong contents:
    s = [1,2,3] (cap 6), Insert(s, 0, s[1:3]...) returns [2,1,1,2,3]. *)
Theorem C14_insert_aliased_refuted :
  let m : gmap nat (list nat) := {[ 0 := [1;2;3;0;0;0] ]} in
  let s := Sl (Some 0) 0 3 6 in
  let v := Sl (Some 0) 1 2 5 in
  wf m s /\ wf m v /\ ~ no_alias s v /\
  exists s' m', insert 0 m s 0 v = Ok (s', m') /\ contents m' s' = [2;1;1;2;3] /\
    contents m' s' <> take 0 (contents m s) ++ contents m v ++ drop 0 (contents m s).
Proof.
  exact ltac:(cbn zeta; split; [|split; [|split]];
    [split; [simpl; lia|exists [1;2;3;0;0;0]; split; [reflexivity|simpl; lia]]
    |split; [simpl; lia|exists [1;2;3;0;0;0]; split; [reflexivity|simpl; lia]]
    |unfold no_alias; simpl; intros [H|[H|[H|H]]]; [discriminate|by apply H|lia|lia]
    |eexists _, _; split; [reflexivity|split; [reflexivity|vm_compute; discriminate]]]).
Qed.
Print Assumptions C14_insert_aliased_refuted.

(** C15: Clone; the frame clauses for Insert, Delete and Replace are in C14's
    theorems ([only_window] in place, [fresh_result] when reallocating), those of
    Compact in C16, of Grow in C19. *)
Theorem C15_clone_is_fresh :
  forall (T : Type) (zero : T) (growcap : nat -> nat -> nat),
  (forall o n, n <= growcap o n) ->
  forall (m : gmap nat (list T)) (s : slice), wf m s ->
  exists s' m', clone zero growcap m s = (s', m') /\ wf m' s' /\ contents m' s' = contents m s /\
    (arr s = None -> s' = s /\ m' = m) /\ (arr s <> None -> fresh_result m m' s').
Proof. exact @clone_ok. Qed.
Print Assumptions C15_clone_is_fresh.

Theorem C15_append :
  forall (T : Type) (zero : T) (growcap : nat -> nat -> nat),
  (forall o n, n <= growcap o n) ->
  forall (m : gmap nat (list T)) (s v : slice), wf m s -> wf m v ->
  exists s' m', append zero growcap m s v = (s', m') /\ wf m' s' /\
    contents m' s' = contents m s ++ contents m v /\
    (len s + len v <= cap s -> only_window m m' s /\ arr s' = arr s /\ off s' = off s) /\
    (cap s < len s + len v -> fresh_result m m' s').
Proof. exact @append_ok. Qed.
Print Assumptions C15_append.

(** a result in a fresh array is isolated: a write through it is invisible
    through every older slice *)
Theorem C15_fresh_results_are_isolated :
  forall (T : Type) (m m' m'' : gmap nat (list T)) (r t : slice) (i : nat) (x : T),
  fresh_result m m' r -> wf m t -> set m' r i x = Ok m'' -> contents m'' t = contents m t.
Proof. exact @fresh_isolated. Qed.
Print Assumptions C15_fresh_results_are_isolated.

(** a slice outside the window of s sees nothing of an in-place operation on s *)
Theorem C15_outside_window_unaffected :
  forall (T : Type) (m m' : gmap nat (list T)) (s t : slice),
  wf m s -> wf m t -> only_window m m' s -> no_alias s t -> contents m' t = contents m t.
Proof. exact @only_window_contents. Qed.
Print Assumptions C15_outside_window_unaffected.

(** C16 *)
Theorem C16_compact_func :
  forall (T : Type) (eq : T -> T -> bool) (m : gmap nat (list T)) (s : slice), wf m s ->
  exists s' m', compact_func eq m s = Ok (s', m') /\ wf m' s' /\ arr s' = arr s /\ off s' = off s /\
    only_window m m' s /\ len s' <= len s /\
    match contents m s with
    | [] => contents m' s' = []
    | x :: l => exists kept, compacted eq x l kept /\ contents m' s' = x :: kept
    end /\
    drop (len s') (contents m' s) = drop (len s') (contents m s).
Proof. exact @compact_func_ok. Qed.
Print Assumptions C16_compact_func.

Theorem C16_compacted_determined :
  forall (T : Type) (eq : T -> T -> bool) (last : T) (l k1 k2 : list T),
  compacted eq last l k1 -> compacted eq last l k2 -> k1 = k2.
Proof. exact @compacted_det. Qed.
Print Assumptions C16_compacted_determined.

(** for Go's == (symmetric and transitive, also at floats) what is kept are the
    elements different from their predecessor *)
Theorem C16_compact_drops_repeats :
  forall (T : Type) (eqb : T -> T -> bool) (last : T) (l k : list T),
  (forall a b, eqb a b = eqb b a) -> (forall a b c, eqb a b = true -> eqb b c = true -> eqb a c = true) ->
  compacted eqb last l k -> k = dedup_pred eqb last l.
Proof. exact @compacted_dedup. Qed.
Print Assumptions C16_compact_drops_repeats.

(** C17 *)
Theorem C17_equal_func :
  forall (T U : Type) (eq : T -> U -> bool) (s1 : list T) (s2 : list U),
  exists b, equal_func eq s1 s2 = Ok b /\ (b = true <-> Forall2 (fun a c => eq a c = true) s1 s2).
Proof. exact @equal_func_ok. Qed.
Print Assumptions C17_equal_func.

Theorem C17_compare_func :
  forall (T U : Type) (cmp : T -> U -> Z) (s1 : list T) (s2 : list U),
  exists c, compare_func cmp s1 s2 = Ok c /\
   ((exists p1 x r1 p2 y r2, s1 = p1 ++ x :: r1 /\ s2 = p2 ++ y :: r2 /\
       Forall2 (fun a b => cmp a b = 0%Z) p1 p2 /\ cmp x y <> 0%Z /\ c = cmp x y) \/
    (exists p x r, s1 = p ++ x :: r /\ Forall2 (fun a b => cmp a b = 0%Z) p s2 /\ c = 1%Z) \/
    (exists p y r, s2 = p ++ y :: r /\ Forall2 (fun a b => cmp a b = 0%Z) s1 p /\ c = (-1)%Z) \/
    (Forall2 (fun a b => cmp a b = 0%Z) s1 s2 /\ c = 0%Z)).
Proof. exact @compare_func_ok. Qed.
Print Assumptions C17_compare_func.

Theorem C17_compare_is_lexicographic :
  forall (T : Type) (ltb : T -> T -> bool),
  (forall a, ltb a a = false) ->
  (forall a b c, ltb a b = true -> ltb b c = true -> ltb a c = true) ->
  (forall a b, ltb a b = false -> ltb b a = false -> a = b) ->
  forall s1 s2, exists c, compare ltb s1 s2 = Ok c /\
    (c = (-1)%Z <-> lex_lt (fun a b => ltb a b = true) s1 s2) /\ (c = 0%Z <-> s1 = s2) /\
    (c = 1%Z <-> lex_lt (fun a b => ltb a b = true) s2 s1) /\ (c = (-1)%Z \/ c = 0%Z \/ c = 1%Z).
Proof. exact @compare_iff. Qed.
Print Assumptions C17_compare_is_lexicographic.

Theorem C17_lexicographic_is_a_strict_order :
  forall (T : Type) (ltb : T -> T -> bool),
  (forall a, ltb a a = false) ->
  (forall a b c, ltb a b = true -> ltb b c = true -> ltb a c = true) ->
  (forall a, ~ lex_lt (fun a b => ltb a b = true) a a) /\
  (forall a b c, lex_lt (fun a b => ltb a b = true) a b -> lex_lt (fun a b => ltb a b = true) b c ->
     lex_lt (fun a b => ltb a b = true) a c).
Proof. intros T ltb Hirr Htr. exact (conj (lex_irrefl ltb Hirr) (lex_trans ltb Htr)). Qed.
Print Assumptions C17_lexicographic_is_a_strict_order.

(** C18 *)
Theorem C18_index :
  forall (T : Type) (f : T -> bool) (s : list T),
  (exists k v, s !! k = Some v /\ f v = true /\
     (forall j u, j < k -> s !! j = Some u -> f u = false) /\ index f s = Z.of_nat k) \/
  (Forall (fun v => f v = false) s /\ index f s = (-1)%Z).
Proof. exact @index_ok. Qed.
Print Assumptions C18_index.

Theorem C18_contains :
  forall (T : Type) (f : T -> bool) (s : list T),
  contains f s = true <-> exists v, v ∈ s /\ f v = true.
Proof. exact @contains_ok. Qed.
Print Assumptions C18_contains.

(** C19 *)
Theorem C19_grow :
  forall (T : Type) (zero : T) (growcap : nat -> nat -> nat),
  (forall o n, n <= growcap o n) ->
  forall (m : gmap nat (list T)) (s : slice) (n : Z), wf m s -> (0 <= n)%Z ->
  exists s' m', grow zero growcap m s n = Ok (s', m') /\ wf m' s' /\
    len s' = len s /\ contents m' s' = contents m s /\
    (Z.of_nat (len s) + n <= Z.of_nat (cap s'))%Z /\
    ((Z.of_nat (len s) + n <= Z.of_nat (cap s))%Z -> s' = s /\ m' = m) /\
    ((Z.of_nat (cap s) < Z.of_nat (len s) + n)%Z -> fresh_result m m' s').
Proof. exact @grow_ok. Qed.
Print Assumptions C19_grow.

Theorem C19_grow_panics :
  forall (T : Type) (zero : T) (growcap : nat -> nat -> nat) (m : gmap nat (list T)) (s : slice) (n : Z),
  (n < 0)%Z -> grow zero growcap m s n = Panic.
Proof. exact @grow_panic. Qed.
Print Assumptions C19_grow_panics.

Theorem C19_clip :
  forall (T : Type) (zero : T) (growcap : nat -> nat -> nat),
  (forall o n, n <= growcap o n) ->
  forall (m : gmap nat (list T)) (s : slice), wf m s ->
  exists s', clip s = Ok s' /\ wf m s' /\ arr s' = arr s /\ off s' = off s /\
    contents m s' = contents m s /\ len s' = len s /\ cap s' = len s' /\
    forall v, wf m v -> 0 < len v ->
      fresh_result m (snd (append zero growcap m s' v)) (fst (append zero growcap m s' v)).
Proof. exact @clip_ok. Qed.
Print Assumptions C19_clip.

(** C20: the methods return nothing; the caller keeps its own header [s] *)
Theorem C20_push_back_leaves_receiver :
  forall (T : Type) (zero : T) (growcap : nat -> nat -> nat),
  (forall o n, n <= growcap o n) ->
  forall (m : gmap nat (list T)) (s v : slice), wf m s -> wf m v ->
  exists m', push_back zero growcap m s v = (s, m') /\ wf m' s /\ contents m' s = contents m s.
Proof. exact @push_back_ok. Qed.
Print Assumptions C20_push_back_leaves_receiver.

Theorem C20_insert_method :
  forall (T : Type) (zero : T) (m : gmap nat (list T)) (s : slice) (i : Z) (v : slice),
  wf m s -> wf m v -> (0 <= i <= Z.of_nat (len s))%Z ->
  (len s + len v <= cap s -> no_alias s v) ->
  exists m', insert_method zero m s i v = Ok (s, m') /\ wf m' s /\
    (len s + len v <= cap s -> contents m' s =
      take (len s) (take (Z.to_nat i) (contents m s) ++ contents m v ++ drop (Z.to_nat i) (contents m s))) /\
    (cap s < len s + len v -> contents m' s = contents m s /\
       forall a c, m !! a = Some c -> m' !! a = Some c).
Proof. exact @insert_method_ok. Qed.
Print Assumptions C20_insert_method.

(** Non-vacuity: a memory with two arrays, a slice in the middle of one with
    spare capacity, and an argument slice in the other. *)
Definition ex_mem : gmap nat (list nat) := {[ 0 := [9;1;2;3;0;0;8]; 1 := [7;7] ]}.
Definition ex_s : slice := Sl (Some 0) 1 3 5.
Definition ex_v : slice := Sl (Some 1) 0 2 2.
Example C14_hypotheses_met : wf ex_mem ex_s /\ wf ex_mem ex_v /\ no_alias ex_s ex_v.
Proof.
  split; [|split].
  - split; [simpl; lia|]. exists [9;1;2;3;0;0;8]. split; [reflexivity|simpl; lia].
  - split; [simpl; lia|]. exists [7;7]. split; [reflexivity|simpl; lia].
  - right; left. discriminate.
Qed.
Example C14_concrete : exists s' m',
  insert 0 ex_mem ex_s 1 ex_v = Ok (s', m') /\ contents m' s' = [1;7;7;2;3] /\
  m' !! 0 = Some [9;1;7;7;2;3;8].
Proof. eexists _, _. split; [reflexivity|]. split; reflexivity. Qed.
Example C20_concrete : exists m',
  insert_method 0 ex_mem ex_s 1 ex_v = Ok (ex_s, m') /\ contents m' ex_s = [1;7;7].
Proof. eexists. split; reflexivity. Qed.
Example C16_concrete : exists s' m',
  compact_func Nat.eqb {[ 0 := [1;1;2;2;2;3;1] ]} (Sl (Some 0) 0 7 7) = Ok (s', m') /\
  contents m' s' = [1;2;3;1].
Proof. eexists _, _. split; reflexivity. Qed.
Example C19_growcap_exists : forall o n : nat, n <= (fun o n => Nat.max (2 * o) n) o n.
Proof. intros. simpl. lia. Qed.
