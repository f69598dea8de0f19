(** What Inorder of a B+ tree is said to print. *)
From Verif Require Import Base BPlus_Model BPlus_Spec.

Section spec.
  Context {K V : Type}.
  (** the mapping of an item of a reading, whether stored entry or separator *)
  Definition item_kv (i : @item K V) : K * V := match i with Entry e => e | Sep e => e end.
End spec.
