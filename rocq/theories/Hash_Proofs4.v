(** IEEE 754 equality against equality of bit patterns. *)
From Verif Require Import Base Hash_Spec.
Local Open Scope Z_scope.

(** ** Floats *)
Section float.
  Context (m e : Z).
  Hypothesis Hm : 0 < m.
  Hypothesis He : 1 < e.
  Notation frac b := (b mod 2 ^ m).
  Notation ex b := ((b / 2 ^ m) mod 2 ^ e).
  Notation neg b := (b / 2 ^ (m + e) =? 1).

  Lemma fbits b : 0 <= b < 2 ^ (m + e + 1) ->
    b = (b / 2 ^ (m + e)) * 2 ^ (m + e) + ex b * 2 ^ m + frac b /\ 0 <= frac b < 2 ^ m /\ 0 <= ex b < 2 ^ e
    /\ (b / 2 ^ (m + e) = 0 \/ b / 2 ^ (m + e) = 1).
  Proof.
    intros Hb. assert (Pm : 0 < 2 ^ m) by (apply Z.pow_pos_nonneg; lia). assert (Pe : 0 < 2 ^ e) by (apply Z.pow_pos_nonneg; lia).
    assert (Eme : 2 ^ (m + e) = 2 ^ m * 2 ^ e) by (apply Z.pow_add_r; lia).
    assert (E1 : 2 ^ (m + e + 1) = 2 * 2 ^ (m + e)) by (rewrite Z.pow_add_r by lia; lia).
    split; [|split; [|split]].
    - rewrite Eme, <-Z.div_div by lia. pose proof (Z.div_mod b (2 ^ m) ltac:(lia)). pose proof (Z.div_mod (b / 2 ^ m) (2 ^ e) ltac:(lia)). nia.
    - apply Z.mod_pos_bound. lia.
    - apply Z.mod_pos_bound. lia.
    - assert (0 <= b / 2 ^ (m + e)) by (apply Z.div_pos; nia). assert (b / 2 ^ (m + e) < 2) by (apply Z.div_lt_upper_bound; nia). lia.
  Qed.

  Lemma mag_inj f f' x x' : 0 <= f < 2 ^ m -> 0 <= f' < 2 ^ m -> 0 <= x -> 0 <= x' ->
    (if x =? 0 then f else (2 ^ m + f) * 2 ^ (x - 1)) = (if x' =? 0 then f' else (2 ^ m + f') * 2 ^ (x' - 1)) -> x = x' /\ f = f'.
  Proof.
    intros Hf Hf' Hx Hx'. assert (Pm : 0 < 2 ^ m) by (apply Z.pow_pos_nonneg; lia).
    assert (P : forall y, 0 < y -> 1 <= 2 ^ (y - 1)). { intros y Hy. pose proof (Z.pow_pos_nonneg 2 (y - 1)). lia. }
    destruct (Z.eqb_spec x 0) as [->|N], (Z.eqb_spec x' 0) as [->|N']; intros E; [done| | |].
    - specialize (P x' ltac:(lia)). nia.
    - specialize (P x ltac:(lia)). nia.
    - assert (G : forall a b c d, 0 < a -> 0 < c -> a < c -> 0 <= b < 2 ^ m -> 0 <= d < 2 ^ m -> (2 ^ m + b) * 2 ^ (a - 1) < (2 ^ m + d) * 2 ^ (c - 1)).
      { intros a b c d Ha Hc Hac Hb Hd. replace (c - 1) with ((c - a) + (a - 1)) by lia. rewrite Z.pow_add_r by lia.
        assert (2 <= 2 ^ (c - a)). { change 2 with (2 ^ 1) at 1. apply Z.pow_le_mono_r; lia. }
        specialize (P a Ha). nia. }
      assert (x = x') as ->.
      { destruct (Z.lt_total x x') as [H|[H|H]]; [|done|].
        - specialize (G x f x' f' ltac:(lia) ltac:(lia) H Hf Hf'). lia.
        - specialize (G x' f' x f ltac:(lia) ltac:(lia) H Hf' Hf). lia. }
      split; [done|]. specialize (P x' ltac:(lia)). nia.
  Qed.

  Definition is_zero (b : Z) : Prop := decode m e b = Finite 0.

  Lemma feq_bits a b : 0 <= a < 2 ^ (m + e + 1) -> 0 <= b < 2 ^ (m + e + 1) -> feq m e a b -> a = b \/ (is_zero a /\ is_zero b).
  Proof.
    intros Ha Hb [N E]. destruct (fbits a Ha) as (Ea & Fa & Xa & Sa), (fbits b Hb) as (Eb & Fb & Xb & Sb).
    assert (J : a / 2 ^ (m + e) = b / 2 ^ (m + e) -> ex a = ex b -> frac a = frac b -> a = b).
    { intros J1 J2 J3. rewrite Ea, Eb. by rewrite J1, J2, J3. }
    assert (Z0 : forall c, decode m e c = Finite 0 -> is_zero c) by done.
    assert (Pm : 0 < 2 ^ m) by (apply Z.pow_pos_nonneg; lia).
    unfold is_zero. revert N E. unfold decode. cbv zeta.
    destruct (Z.eqb_spec (ex a) (2 ^ e - 1)) as [XA|XA].
    - destruct (Z.eqb_spec (frac a) 0) as [FA|FA]; [|by intros []].
      destruct (Z.eqb_spec (ex b) (2 ^ e - 1)) as [XB|XB]; [|destruct (neg a); done].
      destruct (Z.eqb_spec (frac b) 0) as [FB|FB]; [|destruct (neg a); done].
      destruct (Z.eqb_spec (a / 2 ^ (m + e)) 1), (Z.eqb_spec (b / 2 ^ (m + e)) 1); intros _ E; try discriminate E; left.
      + apply J; congruence.
      + apply J; [|congruence..]. clear -Sa Sb n n0. destruct Sa as [-> | ?]; [|done]. by destruct Sb as [-> | ?].
    - destruct (Z.eqb_spec (ex b) (2 ^ e - 1)) as [XB|XB].
      { destruct (frac b =? 0), (neg b); done. }
      intros _ [= E].
      set (va := if ex a =? 0 then frac a else (2 ^ m + frac a) * 2 ^ (ex a - 1)) in *.
      set (vb := if ex b =? 0 then frac b else (2 ^ m + frac b) * 2 ^ (ex b - 1)) in *.
      assert (PV : forall y f, 0 <= f -> 0 <= y -> 0 <= (if y =? 0 then f else (2 ^ m + f) * 2 ^ (y - 1))).
      { clear -Pm. intros y f Hf Hy. destruct (Z.eqb_spec y 0); [done|]. apply Z.mul_nonneg_nonneg; [lia|]. apply Z.pow_nonneg. lia. }
      assert (Pa : 0 <= va) by (apply PV; [apply Fa|apply Xa]). assert (Pb : 0 <= vb) by (apply PV; [apply Fb|apply Xb]).
      destruct (Z.eqb_spec (a / 2 ^ (m + e)) 1) as [NA|NA], (Z.eqb_spec (b / 2 ^ (m + e)) 1) as [NB|NB].
      + assert (va = vb) as V by (clear -E; lia). apply mag_inj in V as [V1 V2]; try assumption; [|apply Xa|apply Xb]. left. apply J; congruence.
      + right. clear -E Pa Pb. assert (va = 0) as -> by lia. assert (vb = 0) as -> by lia. done.
      + right. clear -E Pa Pb. assert (va = 0) as -> by lia. assert (vb = 0) as -> by lia. done.
      + assert (va = vb) as V by (clear -E; lia). apply mag_inj in V as [V1 V2]; try assumption; [|apply Xa|apply Xb]. left. apply J; [|congruence..]. clear -Sa Sb NA NB. destruct Sa as [-> | ?]; [|done]. by destruct Sb as [-> | ?].
  Qed.
End float.
