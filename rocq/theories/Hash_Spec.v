(** XXH64, written from the published xxHash specification (not from the Go
    code), and the vocabulary of the hasher theorems. *)
From Coq Require Import Strings.Ascii Strings.String.
From stdpp Require Import list.
From Verif Require Import Base.

Local Open Scope Z_scope.

Definition PRIME64_1 : Z := 0x9E3779B185EBCA87.
Definition PRIME64_2 : Z := 0xC2B2AE3D27D4EB4F.
Definition PRIME64_3 : Z := 0x165667B19E3779F9.
Definition PRIME64_4 : Z := 0x85EBCA77C2B2AE63.
Definition PRIME64_5 : Z := 0x27D4EB2F165667C5.

Definition mod64 (x : Z) : Z := x mod 2 ^ 64.
(** x <<< k: the k high bits move to the low end *)
Definition rol (x k : Z) : Z := (x mod 2 ^ (64 - k)) * 2 ^ k + x / 2 ^ (64 - k).

(** the number whose little-endian bytes are [bs] *)
Fixpoint le_value (bs : list Z) : Z :=
  match bs with [] => 0 | b :: bs => b + 256 * le_value bs end.
(** the [n] little-endian bytes of [x] *)
Fixpoint le_bytes (n : nat) (x : Z) : list Z :=
  match n with O => [] | S n => x mod 256 :: le_bytes n (x / 256) end.

Definition xround (acc lane : Z) : Z := mod64 (rol (mod64 (acc + lane * PRIME64_2)) 31 * PRIME64_1).
Definition merge_acc (acc accn : Z) : Z := mod64 (Z.lxor acc (xround 0 accn) * PRIME64_1 + PRIME64_4).
Definition avalanche (a : Z) : Z :=
  let a := mod64 (Z.lxor a (a / 2 ^ 33) * PRIME64_2) in
  let a := mod64 (Z.lxor a (a / 2 ^ 29) * PRIME64_3) in
  Z.lxor a (a / 2 ^ 32).

(** step 2, one stripe of 32 bytes *)
Definition stripe (acc : Z * Z * Z * Z) (bs : list Z) : Z * Z * Z * Z :=
  let '(a1, a2, a3, a4) := acc in
  (xround a1 (le_value (take 8 bs)), xround a2 (le_value (take 8 (drop 8 bs))),
   xround a3 (le_value (take 8 (drop 16 bs))), xround a4 (le_value (take 8 (drop 24 bs)))).
(** all the stripes, and the remaining bytes *)
Fixpoint stripes (fuel : nat) (acc : Z * Z * Z * Z) (bs : list Z) : (Z * Z * Z * Z) * list Z :=
  match fuel with
  | O => (acc, bs)
  | S fuel => if decide (32 <= length bs)%nat then stripes fuel (stripe acc bs) (drop 32 bs) else (acc, bs)
  end.
(** step 5: lanes of 8 bytes, then of 4, then of 1 *)
Fixpoint lanes8 (fuel : nat) (a : Z) (bs : list Z) : Z * list Z :=
  match fuel with
  | O => (a, bs)
  | S fuel =>
      if decide (8 <= length bs)%nat then
        lanes8 fuel (mod64 (rol (Z.lxor a (xround 0 (le_value (take 8 bs)))) 27 * PRIME64_1 + PRIME64_4)) (drop 8 bs)
      else (a, bs)
  end.
Definition lane4 (a : Z) (bs : list Z) : Z * list Z :=
  if decide (4 <= length bs)%nat then
    (mod64 (rol (Z.lxor a (mod64 (le_value (take 4 bs) * PRIME64_1))) 23 * PRIME64_2 + PRIME64_3), drop 4 bs)
  else (a, bs).
Fixpoint lanes1 (a : Z) (bs : list Z) : Z :=
  match bs with
  | [] => a
  | b :: bs => lanes1 (mod64 (rol (Z.lxor a (mod64 (b * PRIME64_5))) 11 * PRIME64_1)) bs
  end.

Definition xxh64 (seed : Z) (bs : list Z) : Z :=
  let '(a, rest) :=
    (if decide (32 <= length bs)%nat then
       let '((a1, a2, a3, a4), rest) :=
         stripes (length bs) (mod64 (seed + PRIME64_1 + PRIME64_2), mod64 (seed + PRIME64_2), seed, mod64 (seed - PRIME64_1)) bs in
       let a := mod64 (rol a1 1 + rol a2 7 + rol a3 12 + rol a4 18) in
       (merge_acc (merge_acc (merge_acc (merge_acc a a1) a2) a3) a4, rest)
     else (mod64 (seed + PRIME64_5), bs)) in
  let a := mod64 (a + Z.of_nat (length bs)) in
  let '(a, rest) := lanes8 (length rest) a rest in
  let '(a, rest) := lane4 a rest in
  avalanche (lanes1 a rest).

(** published test vectors *)
Definition bytes (s : String.string) : list Z := (fun c => Z.of_N (Ascii.N_of_ascii c)) <$> String.list_ascii_of_string s.
Example xxh64_empty : xxh64 0 (bytes ""%string) = 0xEF46DB3751D8E999. Proof. by vm_compute. Qed.
Example xxh64_a : xxh64 0 (bytes "a"%string) = 0xD24EC4F1A98C6E5B. Proof. by vm_compute. Qed.
Example xxh64_abc : xxh64 0 (bytes "abc"%string) = 0x44BC2CF5AD770999. Proof. by vm_compute. Qed.
Example xxh64_long : xxh64 0 (bytes "Nobody inspects the spammish repetition"%string) = 0xFBCEA83C8A378BF1. Proof. by vm_compute. Qed.

Definition is_bytes (bs : list Z) : Prop := Forall (fun b => 0 <= b < 256) bs.

(** IEEE 754 binary interchange formats with [m] fraction bits and [e]
    exponent bits: the number represented by a bit pattern, as a multiple of
    the smallest positive number.  A finite number is ± frac or
    ± (2^m + frac) * 2^(exp-1). *)
Inductive fnum := Finite (v : Z) | PlusInf | MinusInf | NaN.
Definition decode (m e : Z) (bits : Z) : fnum :=
  let frac := bits mod 2 ^ m in
  let ex := (bits / 2 ^ m) mod 2 ^ e in
  let neg := bits / 2 ^ (m + e) =? 1 in
  if ex =? 2 ^ e - 1 then
    if frac =? 0 then (if neg then MinusInf else PlusInf) else NaN
  else
    let v := if ex =? 0 then frac else (2 ^ m + frac) * 2 ^ (ex - 1) in
    Finite (if neg then - v else v).
(** the Go operator == on floats *)
Definition feq (m e a b : Z) : Prop := decode m e a <> NaN /\ decode m e a = decode m e b.
