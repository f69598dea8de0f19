(** Property theorems for util/hasher (C54-C57). *)
From Coq Require Import Strings.Ascii Strings.String.
From stdpp Require Import list.
From Verif Require Import Base Hash_Model Hash_Spec Hash_Proofs Hash_Proofs2 Hash_Proofs3 Hash_Proofs4.

Local Open Scope Z_scope.

(** Vocabulary: the width in bytes of the values of a type (on a machine whose
    int has [int_size] bytes), the keys that are values of a type, and the
    bytes of a key in memory, on a little-endian machine. *)
Definition type_width (int_size : Z) (b : basic) : Z :=
  match b with
  | TInt8 | TUint8 | TBool => 1
  | TInt16 | TUint16 => 2
  | TInt32 | TUint32 | TFloat32 => 4
  | TInt64 | TUint64 | TFloat64 | TComplex64 => 8
  | TComplex128 => 16
  | TInt | TUint | TUintptr | TPointer => int_size
  | TString => 0
  end.
Definition is_value (int_size : Z) (b : basic) (k : key) : Prop :=
  match b, k with
  | TString, KStr bs => is_bytes bs
  | TString, KBits _ => False
  | TComplex128, KStr bs => is_bytes bs /\ List.length bs = 16%nat
  | TComplex128, KBits _ => False
  | _, KStr _ => False
  | _, KBits x => 0 <= x < 2 ^ (8 * type_width int_size b)
  end.
Definition key_memory (int_size : Z) (b : basic) (k : key) : list Z :=
  match k with
  | KStr bs => bs
  | KBits x => le_bytes (Z.to_nat (type_width int_size b)) x
  end.
(** intSizeBytes on the ports of Go *)
Definition port (int_size : Z) : Prop := int_size = 4 \/ int_size = 8.

(** ** C54 *)
Local Lemma float32_dword x : float32_hasher x = dword_hasher x. Proof. unfold float32_hasher, dword_hasher. exact eq_refl. Qed.
Local Lemma float64_qword x : float64_hasher x = qword_hasher x. Proof. unfold float64_hasher, qword_hasher. exact eq_refl. Qed.
Local Lemma complex64_qword x : complex64_hasher x = qword_hasher x. Proof. unfold complex64_hasher, qword_hasher. exact eq_refl. Qed.
Local Opaque xxh64 byte_hasher word_hasher dword_hasher qword_hasher float32_hasher float64_hasher complex64_hasher string_hasher.
Theorem C54_hash_is_xxh64 :
  forall int_size b k, port int_size -> hashable (Predeclared b) = true -> is_value int_size b k ->
  hash int_size (Predeclared b) k = Ok (xxh64 0 (key_memory int_size b k)).
Proof.
  intros is b k Hp Hh Hv. unfold hash.
  destruct b; destruct k as [bs|x]; try done; cbn [get_hash_func is_value] in *;
    try (destruct Hp as [-> | ->]; cbn [Z.eqb Pos.eqb deref rbind run_hasher key_memory type_width] in *);
    cbn [deref rbind run_hasher key_memory type_width] in *.
  all: lazymatch goal with
       | |- string_hasher _ = _ => by apply string_hasher_ok
       | |- Ok (byte_hasher _) = _ => rewrite byte_hasher_ok by exact Hv; reflexivity
       | |- Ok (word_hasher _) = _ => rewrite word_hasher_ok by exact Hv; reflexivity
       | |- Ok (float32_hasher _) = _ => rewrite float32_dword, dword_hasher_ok by exact Hv; reflexivity
       | |- Ok (float64_hasher _) = _ => rewrite float64_qword, qword_hasher_ok by exact Hv; reflexivity
       | |- Ok (dword_hasher _) = _ => rewrite dword_hasher_ok by exact Hv; reflexivity
       | |- Ok (qword_hasher _) = _ => rewrite qword_hasher_ok by exact Hv; reflexivity
       end.
Qed.
Print Assumptions C54_hash_is_xxh64.

(** the hash functions GetHashFunc has for complex types, which the type
    constraint does not admit *)
Theorem C54_complex_hashers :
  (forall x, 0 <= x < 2 ^ 64 -> complex64_hasher x = xxh64 0 (le_bytes 8 x)) /\
  (forall bs, is_bytes bs -> List.length bs = 16%nat -> complex128_hasher bs = Ok (xxh64 0 bs)).
Proof. split; [intros x Hx; rewrite complex64_qword; by apply qword_hasher_ok|exact complex128_hasher_ok]. Qed.
Print Assumptions C54_complex_hashers.

(** the hash of a fixed-size key is the hash of the string of its bytes *)
Lemma le_bytes_is_bytes n x : is_bytes (le_bytes n x).
Proof. revert x. induction n as [|n IH]; intros x; constructor; [apply Z.mod_pos_bound; lia|apply IH]. Qed.
Theorem C54_key_hash_is_string_hash :
  forall int_size b k, port int_size -> hashable (Predeclared b) = true -> is_value int_size b k ->
  hash int_size (Predeclared b) k = hash int_size (Predeclared TString) (KStr (key_memory int_size b k)).
Proof.
  intros is b k Hp Hh Hv. rewrite (C54_hash_is_xxh64 is b k), (C54_hash_is_xxh64 is TString) by first [done|destruct b, k; try done; apply le_bytes_is_bytes].
  done.
Qed.
Print Assumptions C54_key_hash_is_string_hash.

(** ** C55 *)
Local Lemma Ok_inj (x y : Z) : Ok x = Ok y -> x = y. Proof. by intros [=]. Qed.
Theorem C55_fixed_width_hash_is_injective :
  forall int_size b k1 k2, port int_size -> b <> TString -> hashable (Predeclared b) = true ->
  is_value int_size b k1 -> is_value int_size b k2 ->
  hash int_size (Predeclared b) k1 = hash int_size (Predeclared b) k2 -> k1 = k2.
Proof.
  intros is b k1 k2 Hp Hb Hh Hv1 Hv2. unfold hash.
  destruct b; try done; destruct k1 as [|x1], k2 as [|x2]; try done; cbn [get_hash_func is_value] in *;
    try (destruct Hp as [-> | ->]; cbn [Z.eqb Pos.eqb deref rbind run_hasher type_width] in *);
    cbn [deref rbind run_hasher type_width] in *; intros E; apply Ok_inj in E; f_equal.
  all: lazymatch type of E with
       | byte_hasher _ = _ => exact (byte_hasher_inj _ _ Hv1 Hv2 E)
       | word_hasher _ = _ => exact (word_hasher_inj _ _ Hv1 Hv2 E)
       | float32_hasher _ = _ => rewrite (float32_dword x1), (float32_dword x2) in E; exact (dword_hasher_inj _ _ Hv1 Hv2 E)
       | float64_hasher _ = _ => rewrite (float64_qword x1), (float64_qword x2) in E; exact (qword_hasher_inj _ _ Hv1 Hv2 E)
       | dword_hasher _ = _ => exact (dword_hasher_inj _ _ Hv1 Hv2 E)
       | qword_hasher _ = _ => exact (qword_hasher_inj _ _ Hv1 Hv2 E)
       end.
Qed.
Print Assumptions C55_fixed_width_hash_is_injective.

(** ** C56 *)
Theorem C56_hash_func_iff_predeclared :
  forall int_size T, port int_size -> hashable T = true ->
  (exists f, get_hash_func int_size T = Some f) <-> (exists b, T = Predeclared b).
Proof.
  intros is T Hp Hh. split.
  - intros [f Hf]. destruct T as [b|name b]; [by exists b|done].
  - intros [b ->]. destruct b; try done; try (by eexists); cbn [get_hash_func]; destruct Hp as [-> | ->]; by eexists.
Qed.
Print Assumptions C56_hash_func_iff_predeclared.

Theorem C56_hash_panics_iff_named_type :
  forall int_size T k, port int_size -> hashable T = true -> is_value int_size (underlying T) k ->
  (hash int_size T k = Panic <-> exists name b, T = Defined name b) /\
  (hash int_size T k = Panic \/ exists h, hash int_size T k = Ok h /\ 0 <= h < 2 ^ 64).
Proof.
  intros is T k Hp Hh Hv. destruct T as [b|name b].
  - cbn [underlying] in Hv. rewrite (C54_hash_is_xxh64 is b k Hp Hh Hv). split.
    + split; [done|]. by intros (? & ? & ?).
    + right. eexists. split; [reflexivity|]. Transparent xxh64. unfold xxh64. destruct (if decide _ then _ else _) as [a rest].
      destruct (lanes8 _ _ _) as [a' r']. destruct (lane4 a' r') as [a'' r'']. unfold avalanche. cbv zeta.
      apply R_lxor; [apply R_mod64|apply R_div; [apply R_mod64|lia]].
  - split; [split; [intros _; by exists name, b|done]|by left].
Qed.
Print Assumptions C56_hash_panics_iff_named_type.

(** ** C57 *)
(** m and e: fraction and exponent bits *)
Theorem C57_equal_floats_hash_equally_unless_zero :
  forall int_size, port int_size ->
  forall b m e, (b, m, e) = (TFloat64, 52, 11) \/ (b, m, e) = (TFloat32, 23, 8) ->
  forall x y, is_value int_size b (KBits x) -> is_value int_size b (KBits y) -> feq m e x y ->
  decode m e x <> Finite 0 ->
  hash int_size (Predeclared b) (KBits x) = hash int_size (Predeclared b) (KBits y).
Proof.
  intros is Hp b m e [[= -> -> ->] | [= -> -> ->]] x y Hx Hy E N; cbn [is_value type_width] in *.
  - destruct (feq_bits 52 11 ltac:(lia) ltac:(lia) x y) as [-> | [? _]]; done.
  - destruct (feq_bits 23 8 ltac:(lia) ltac:(lia) x y) as [-> | [? _]]; done.
Qed.
Print Assumptions C57_equal_floats_hash_equally_unless_zero.

(** exactly: two float keys hash equally iff they have the same bits; so two
    different zeros are the only equal floats with different hashes, and a
    NaN hashes like itself although it is not equal to itself *)
Theorem C57_float_hash_identifies_bits :
  forall int_size, port int_size ->
  forall b m e, (b, m, e) = (TFloat64, 52, 11) \/ (b, m, e) = (TFloat32, 23, 8) ->
  forall x y, is_value int_size b (KBits x) -> is_value int_size b (KBits y) ->
  (hash int_size (Predeclared b) (KBits x) = hash int_size (Predeclared b) (KBits y) <-> x = y) /\
  (feq m e x y -> hash int_size (Predeclared b) (KBits x) <> hash int_size (Predeclared b) (KBits y) ->
     decode m e x = Finite 0 /\ decode m e y = Finite 0 /\ x <> y) /\
  (feq m e x x <-> decode m e x <> NaN).
Proof.
  intros is Hp b m e Hb x y Hx Hy.
  assert (Hh : hashable (Predeclared b) = true /\ b <> TString) by (by destruct Hb as [[= -> -> ->] | [= -> -> ->]]).
  split; [|split].
  - split; [|by intros ->]. intros E. destruct Hh. by pose proof (C55_fixed_width_hash_is_injective is b _ _ Hp H0 H Hx Hy E) as [= ->].
  - intros E N. assert (x <> y) by (intros ->; done).
    destruct Hb as [[= -> -> ->] | [= -> -> ->]]; cbn [is_value type_width] in *.
    + destruct (feq_bits 52 11 ltac:(lia) ltac:(lia) x y) as [? | [? ?]]; done.
    + destruct (feq_bits 23 8 ltac:(lia) ltac:(lia) x y) as [? | [? ?]]; done.
  - unfold feq. split; [by intros []|done].
Qed.
Print Assumptions C57_float_hash_identifies_bits.

Theorem C57_signed_zeros_refuted :
  forall int_size, port int_size ->
  feq 52 11 0 (2 ^ 63) /\ hash int_size (Predeclared TFloat64) (KBits 0) <> hash int_size (Predeclared TFloat64) (KBits (2 ^ 63)) /\
  feq 23 8 0 (2 ^ 31) /\ hash int_size (Predeclared TFloat32) (KBits 0) <> hash int_size (Predeclared TFloat32) (KBits (2 ^ 31)).
Proof. intros is _. unfold feq. splits; vm_compute; done. Qed.
Print Assumptions C57_signed_zeros_refuted.

(** for keys that are not floats, == is equality of the key, and the hash is a
    function of it; stated for strings *)
Theorem C57_equal_strings_hash_equally :
  forall int_size s1 s2, is_bytes s1 -> s1 = s2 ->
  exists h, hash int_size (Predeclared TString) (KStr s1) = Ok h /\ hash int_size (Predeclared TString) (KStr s2) = Ok h.
Proof. intros is s1 s2 B <-. exists (xxh64 0 s1). by rewrite <-string_hasher_ok. Qed.
Print Assumptions C57_equal_strings_hash_equally.

(** ** Instances *)
Example C54_ex_string : hash 8 (Predeclared TString) (KStr (bytes "Nobody inspects the spammish repetition"%string)) = Ok 0xFBCEA83C8A378BF1.
Proof. by vm_compute. Qed.
Example C54_ex_uint8 : hash 8 (Predeclared TUint8) (KBits 97) = Ok 0xD24EC4F1A98C6E5B.   (* "a" *)
Proof. by vm_compute. Qed.
Example C54_ex_value : is_value 4 TInt (KBits (2 ^ 32 - 1)) /\ ~ is_value 4 TInt (KBits (2 ^ 32)) /\ is_value 8 TString (KStr (bytes "abc"%string)).
Proof. splits; try (cbn; lia). repeat constructor; cbn; lia. Qed.
Example C56_ex_named : hashable (Defined 7 TInt) = true /\ hash 8 (Defined 7 TInt) (KBits 3) = Panic /\ is_value 8 TInt (KBits 3).
Proof. splits; try done; cbn; lia. Qed.
(** 1.5 = 0x3FF8000000000000; NaN = 0x7FF8000000000001; smallest number 1 *)
Example C57_ex_decode : decode 52 11 0x7FF8000000000001 = NaN /\ decode 52 11 1 = Finite 1 /\ decode 52 11 0x7FF0000000000000 = PlusInf
  /\ decode 52 11 0xBFF8000000000000 = Finite (- (3 * 2 ^ 1073)) /\ feq 52 11 0x3FF8000000000000 0x3FF8000000000000.
Proof. unfold feq. splits; vm_compute; done. Qed.
