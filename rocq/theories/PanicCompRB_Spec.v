(** Vocabulary for C74, the red-black tree: a history with abandoned calls
    ([None]) and the history without them. *)
From Verif Require Import Base RBTree_Model RBTree_Spec.

Section spec.
  Context {K V : Type}.
  (** [cut os rs os' rs']: of the calls [os] with results [rs], [os'] with results
      [rs'] are those that remain when the abandoned ones are struck out, except
      that an abandoned DeleteKeys becomes a DeleteKeys of some of the first keys *)
  Inductive cut : list (op K V) -> list (option (out V)) -> list (op K V) -> list (out V) -> Prop :=
  | cut_nil : cut [] [] [] []
  | cut_done o r os rs os' rs' : cut os rs os' rs' -> cut (o :: os) (Some r :: rs) (o :: os') (r :: rs')
  | cut_lost o os rs os' rs' : (forall ks, o <> ODeleteKeys ks) -> cut os rs os' rs' -> cut (o :: os) (None :: rs) os' rs'
  | cut_keys ks j z os rs os' rs' : j < length ks -> cut os rs os' rs' ->
      cut (ODeleteKeys ks :: os) (None :: rs) (ODeleteKeys (take j ks) :: os') (RInt z :: rs').

  (** *** the map with abandoned calls *)
  Context (vzero : V) (comp : K -> K -> Z).
  (** what an abandoned call may have done to the map: nothing, except that
      DeleteKeys has deleted some of the first keys *)
  Definition lost_map (m : list (K * V)) (o : op K V) (m' : list (K * V)) : Prop :=
    match o with
    | ODeleteKeys ks => exists j, j < length ks /\ m' = erases comp m (take j ks)
    | OPut _ _ | OGet _ | OHas _ | ODelete _ | ODeleteWhole _ _ _ => m' = m
    | _ => False
    end.
  Inductive map_run_c : list (K * V) -> list (op K V) -> list (option (out V)) -> list (K * V) -> Prop :=
  | mapc_nil m : map_run_c m [] [] m
  | mapc_done m o r m1 os rs m2 : map_step vzero comp m o r m1 -> map_run_c m1 os rs m2 -> map_run_c m (o :: os) (Some r :: rs) m2
  | mapc_lost m o m1 os rs m2 : lost_map m o m1 -> map_run_c m1 os rs m2 -> map_run_c m (o :: os) (None :: rs) m2.
  (** every call of [os] is allowed by [P] in the map it meets, whether or not
      the calls before it were abandoned *)
  Fixpoint allowed_c (P : list (K * V) -> op K V -> Prop) (m : list (K * V)) (os : list (op K V)) : Prop :=
    match os with
    | [] => True
    | o :: os => P m o /\ (forall r m', map_step vzero comp m o r m' -> allowed_c P m' os) /\
                 forall m', lost_map m o m' -> allowed_c P m' os
    end.
End spec.
