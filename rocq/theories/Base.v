(** Common vocabulary of the model: outcomes of Go code, the comparator
    contract, and small list facts.  Nothing here models a particular file. *)
From stdpp Require Export prelude list gmap sorting.
From Coq Require Export ZArith Lia.
From Coq Require Export ZifyBool ZifyNat ZifyN.
Ltac Zify.zify_post_hook ::= Z.div_mod_to_equations.

(** Outcome of running a piece of Go code: a value, a run-time panic, or
    "the given fuel was not enough" (the only outcome that is not an
    observation about the code). *)
Inductive res (A : Type) : Type :=
| Ok (a : A)
| Panic
| Fuel.
Arguments Ok {A} a.
Arguments Panic {A}.
Arguments Fuel {A}.

Definition rbind {A B} (m : res A) (f : A -> res B) : res B :=
  match m with Ok a => f a | Panic => Panic | Fuel => Fuel end.
Notation "'let!' x := m 'in' k" := (rbind m (fun x => k))
  (at level 200, x pattern, m at level 100, k at level 200, right associativity).

(** Dereferencing something that may be absent (nil pointer, bad index). *)
Definition deref {A} (o : option A) : res A :=
  match o with Some a => Ok a | None => Panic end.

(** The contract of a comparator [fn.Compare]: a total preorder, read through
    the sign of the result (negative, zero, positive). *)
Record cmp_ok {T : Type} (cmp : T -> T -> Z) : Prop := {
  cmp_anti  : forall a b, Z.sgn (cmp a b) = (- Z.sgn (cmp b a))%Z;
  cmp_trans : forall a b c, (cmp a b <= 0)%Z -> (cmp b c <= 0)%Z -> (cmp a c <= 0)%Z;
}.

(** Stronger contract needed by the code that tests [== -1] and [== 1]. *)
Definition cmp_unit {T : Type} (cmp : T -> T -> Z) : Prop :=
  forall a b, cmp a b = (-1)%Z \/ cmp a b = 0%Z \/ cmp a b = 1%Z.

(** Equal keys are identical (a total order rather than a preorder). *)
Definition cmp_eq {T : Type} (cmp : T -> T -> Z) : Prop :=
  forall a b, cmp a b = 0%Z -> a = b.

Section cmp_facts.
  Context {T : Type} (cmp : T -> T -> Z) (H : cmp_ok cmp).

  Lemma cmp_refl a : cmp a a = 0%Z.
  Proof. pose proof (cmp_anti _ H a a) as E. lia. Qed.
  Lemma cmp_lt_gt a b : (cmp a b < 0)%Z <-> (0 < cmp b a)%Z.
  Proof. pose proof (cmp_anti _ H a b) as E. lia. Qed.
  Lemma cmp_le_ge a b : (cmp a b <= 0)%Z <-> (0 <= cmp b a)%Z.
  Proof. pose proof (cmp_anti _ H a b) as E. lia. Qed.
  Lemma cmp_eq_sym a b : cmp a b = 0%Z <-> cmp b a = 0%Z.
  Proof. pose proof (cmp_anti _ H a b) as E. lia. Qed.
  Lemma cmp_total a b : (cmp a b <= 0)%Z \/ (cmp b a <= 0)%Z.
  Proof. pose proof (cmp_anti _ H a b) as E. lia. Qed.
  Lemma cmp_lt_le_trans a b c : (cmp a b < 0)%Z -> (cmp b c <= 0)%Z -> (cmp a c < 0)%Z.
  Proof.
    intros H1 H2. destruct (Z_lt_le_dec (cmp a c) 0) as [|G]; [done|].
    apply cmp_le_ge in G. pose proof (cmp_trans _ H b c a H2 G) as G'.
    apply cmp_lt_gt in H1. lia.
  Qed.
  Lemma cmp_le_lt_trans a b c : (cmp a b <= 0)%Z -> (cmp b c < 0)%Z -> (cmp a c < 0)%Z.
  Proof.
    intros H1 H2. destruct (Z_lt_le_dec (cmp a c) 0) as [|G]; [done|].
    apply cmp_le_ge in G. pose proof (cmp_trans _ H c a b G H1) as G'.
    apply cmp_lt_gt in H2. lia.
  Qed.
  Lemma cmp_lt_trans a b c : (cmp a b < 0)%Z -> (cmp b c < 0)%Z -> (cmp a c < 0)%Z.
  Proof. intros H1 H2. apply cmp_lt_le_trans with b; [done|lia]. Qed.
  Lemma cmp_eq_trans a b c : cmp a b = 0%Z -> cmp b c = 0%Z -> cmp a c = 0%Z.
  Proof.
    intros H1 H2. pose proof (cmp_trans _ H a b c ltac:(lia) ltac:(lia)) as G1.
    apply cmp_eq_sym in H1. apply cmp_eq_sym in H2.
    pose proof (cmp_trans _ H c b a ltac:(lia) ltac:(lia)) as G2.
    apply cmp_le_ge in G2. lia.
  Qed.
  Lemma cmp_eq_l a b c : cmp a b = 0%Z -> Z.sgn (cmp a c) = Z.sgn (cmp b c).
  Proof.
    intros E.
    destruct (Z_lt_le_dec (cmp a c) 0) as [L|L];
    [|destruct (Z.eq_dec (cmp a c) 0) as [L'|L']].
    - apply cmp_eq_sym in E. pose proof (cmp_le_lt_trans b a c ltac:(lia) L). lia.
    - apply cmp_eq_sym in E. pose proof (cmp_eq_trans b a c E L'). lia.
    - assert (G : (cmp c a < 0)%Z) by (apply cmp_lt_gt; lia).
      pose proof (cmp_lt_le_trans c a b G ltac:(lia)) as G2. apply cmp_lt_gt in G2. lia.
  Qed.
  Lemma cmp_eq_r a b c : cmp a b = 0%Z -> Z.sgn (cmp c a) = Z.sgn (cmp c b).
  Proof.
    intros E. pose proof (cmp_eq_l a b c E). pose proof (cmp_anti _ H c a).
    pose proof (cmp_anti _ H c b). lia.
  Qed.
End cmp_facts.

(** The comparator [fn.Comp] on Go integers (fn/comp.go:13-21); models the
    generic [Comp] at integer types. *)
Definition Zcomp (v1 v2 : Z) : Z :=
  if (v1 >? v2)%Z then 1%Z else if (v1 <? v2)%Z then (-1)%Z else 0%Z.

Lemma Zcomp_ok : cmp_ok Zcomp.
Proof. split; unfold Zcomp; intros; repeat case_match; lia. Qed.
Lemma Zcomp_unit : cmp_unit Zcomp.
Proof. intros a b; unfold Zcomp; repeat case_match; lia. Qed.
Lemma Zcomp_eq : cmp_eq Zcomp.
Proof. intros a b; unfold Zcomp; repeat case_match; lia. Qed.

(** split visible conjunctions only (does not unfold definitions) *)
Ltac splits := repeat match goal with |- _ /\ _ => split end.
