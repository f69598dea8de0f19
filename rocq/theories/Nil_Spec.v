(** Vocabulary for C81: a container made with a nil comparator.  Calling a nil
    function panics, so a call of a method is abandoned at its first comparison:
    the functions of the PanicComp models with 0 answers.  Each definition below
    says, of one call, what it answers ([None]: it panics) and what the container
    then holds. *)
From Verif Require Import Base.
From Verif Require SkipList_Model RBTree_Model PQ_Model BPlus_Spec.

Section spec.
  Context {K V T : Type} (zero : T) (vzero : V).
  (** the entries of a map-like container *)
  Implicit Types m : list (K * V).

  Definition nil_skip m (o : SkipList_Model.op K V) : option SkipList_Model.out * list (K * V) :=
    match o, m with
    | SkipList_Model.OInsertUnique k v _, [] | SkipList_Model.OInsertEquals k v _, [] => (Some (SkipList_Model.RBool true), [(k, v)])
    | SkipList_Model.ODelete _, [] => (Some (SkipList_Model.RBool false), [])
    | SkipList_Model.ODeleteKeys _, [] | SkipList_Model.ODeleteKeys [], _ | SkipList_Model.ODeleteRange _ _, [] => (Some (SkipList_Model.RInt 0), m)
    | SkipList_Model.OClear, _ => (Some SkipList_Model.RUnit, [])
    | SkipList_Model.OSetValue i v, _ => (Some SkipList_Model.RUnit, alter (fun e : K * V => (e.1, v)) i m)
    | _, _ => (None, m)
    end.
  Definition nil_tree m (o : RBTree_Model.op K V) : option (RBTree_Model.out V) * list (K * V) :=
    match o, m with
    | RBTree_Model.OPut k v, [] => (Some (RBTree_Model.RBool true), [(k, v)])
    | RBTree_Model.OGet _, [] => (Some (RBTree_Model.RVal vzero), [])
    | RBTree_Model.OHas _, [] | RBTree_Model.ODeleteWhole _ _ _, [] => (Some (RBTree_Model.RBool false), [])
    | RBTree_Model.ODelete _, [] => (Some (RBTree_Model.RNode None), [])
    | RBTree_Model.ODeleteKeys _, [] | RBTree_Model.ODeleteKeys [], _ => (Some (RBTree_Model.RInt 0), m)
    | RBTree_Model.OSize, _ => (Some (RBTree_Model.RInt (Z.of_nat (length m))), m)
    | RBTree_Model.OClear, _ => (Some RBTree_Model.RUnit, [])
    | _, _ => (None, m)
    end.
  Definition nil_bplus m (o : @BPlus_Spec.op K V) : option (@BPlus_Spec.reply V) * list (K * V) :=
    match o, m with
    | BPlus_Spec.InsertEqual k v, [] | BPlus_Spec.InsertUnique k v, [] => (Some (BPlus_Spec.RBool true), [(k, v)])
    | BPlus_Spec.Delete _, [] | BPlus_Spec.DeleteWhole _ _, [] => (Some (BPlus_Spec.RBool false), [])
    | BPlus_Spec.GetVerify _, [] => (Some (BPlus_Spec.RVal vzero false), [])
    | _, _ => (None, m)
    end.
  (** the elements of a priority queue, in the order of the slice.  A Push of a
      second element panics when the element is in already; a Pop of three or more
      panics when it has exchanged the first and the last. *)
  Definition ends_exchanged (l : list T) : list T :=
    match l with
    | [] => []
    | x :: l' => match last l' with None => l | Some y => y :: removelast l' ++ [x] end
    end.
  Definition nil_queue (l : list T) (o : @PQ_Model.op T) : option PQ_Model.out * list T :=
    match o, l with
    | PQ_Model.Push v, [] => (Some (PQ_Model.OBool true), [v])
    | PQ_Model.Push v, _ => (None, l ++ [v])
    | PQ_Model.Pop, [] => (Some (PQ_Model.OVal zero false), [])
    | PQ_Model.Pop, [x] => (Some (PQ_Model.OVal x true), [])
    | PQ_Model.Pop, [x; y] => (Some (PQ_Model.OVal x true), [y])
    | PQ_Model.Pop, _ => (None, ends_exchanged l)
    | PQ_Model.Peek, [] => (Some (PQ_Model.OVal zero false), [])
    | PQ_Model.Peek, x :: _ => (Some (PQ_Model.OVal x true), l)
    | PQ_Model.Len, _ => (Some (PQ_Model.OLen (Z.of_nat (length l))), l)
    end.
End spec.

(** a history *)
Fixpoint nil_run {M O R} (f : M -> O -> option R * M) (m : M) (os : list O) : list (option R) * M :=
  match os with
  | [] => ([], m)
  | o :: os => let '(r, m) := f m o in let '(rs, m) := nil_run f m os in (r :: rs, m)
  end.
(** every call with 0 answers of the comparator *)
Definition unanswered {O} (os : list O) : list (O * nat) := (fun o => (o, 0)) <$> os.
