(** Model of util/hasher/hash.go.

    uint64 values are integers in [0, 2^64); +, * and << wrap around.  A byte
    slice is a list of integers in [0, 256) and a loop index into it is a
    natural number; an index or slice expression out of range is [Panic].
    The key of a fixed-size hasher is the unsigned integer with the bit
    pattern of the Go value: that is what the casts through unsafe.Pointer in
    float32Hasher, float64Hasher, complex64Hasher and complex128Hasher
    produce, and what a signed integer is to the unsigned hasher that
    GetHashFunc hands out for it (assumption: the two Go function types have
    the same calling convention).  The loop of stringHasher runs on fuel
    (the length of the string); [Fuel] does not occur (C54). *)
From Verif Require Import Base.

Local Open Scope Z_scope.

(** uint64 arithmetic *)
Definition M64 : Z := 2 ^ 64.
Definition wrap (x : Z) : Z := x mod M64.
Definition add64 (a b : Z) : Z := wrap (a + b).
Definition mul64 (a b : Z) : Z := wrap (a * b).
Definition neg64 (a : Z) : Z := wrap (- a).
Definition xor64 (a b : Z) : Z := Z.lxor a b.
Definition shr64 (a k : Z) : Z := Z.shiftr a k.
(** bits.RotateLeft64(x, k) = x<<k | x>>(64-k), for 0 < k < 64 *)
Definition rotl64 (x k : Z) : Z := Z.lor (wrap (Z.shiftl x k)) (Z.shiftr x (64 - k)).

(** hash.go:46-52 *)
Definition prime1 : Z := 11400714785074694791.
Definition prime2 : Z := 14029467366897019727.
Definition prime3 : Z := 1609587929392839161.
Definition prime4 : Z := 9650029242287828579.
Definition prime5 : Z := 2870177450012600261.

(** binary.LittleEndian.Uint64 and Uint32, called at hash.go:64-65 with a slice
    of 8 and of 4 bytes *)
Definition u64 (b : list Z) : res Z :=
  match b with
  | [b0; b1; b2; b3; b4; b5; b6; b7] =>
      Ok (Z.lor (Z.lor (Z.lor (Z.lor (Z.lor (Z.lor (Z.lor b0 (Z.shiftl b1 8)) (Z.shiftl b2 16)) (Z.shiftl b3 24))
            (Z.shiftl b4 32)) (Z.shiftl b5 40)) (Z.shiftl b6 48)) (Z.shiftl b7 56))
  | _ => Panic
  end.
Definition u32 (b : list Z) : res Z :=
  match b with
  | [b0; b1; b2; b3] => Ok (Z.lor (Z.lor (Z.lor b0 (Z.shiftl b1 8)) (Z.shiftl b2 16)) (Z.shiftl b3 24))
  | _ => Panic
  end.
(** b[i:j:len(b)] *)
Definition sub (b : list Z) (i j : nat) : res (list Z) :=
  if decide (i <= j <= length b)%nat then Ok (take (j - i) (drop i b)) else Panic.

(** round, hash.go:67-72 *)
Definition round (acc input : Z) : Z :=
  let acc := add64 acc (mul64 input prime2) in
  let acc := rotl64 acc 31 in
  mul64 acc prime1.
(** mergeRound, hash.go:74-79 *)
Definition merge_round (acc val : Z) : Z :=
  let val := round 0 val in
  let acc := xor64 acc val in
  add64 (mul64 acc prime1) prime4.

(** the last five lines of every hasher *)
Definition finish (h : Z) : Z :=
  let h := xor64 h (shr64 h 33) in
  let h := mul64 h prime2 in
  let h := xor64 h (shr64 h 29) in
  let h := mul64 h prime3 in
  xor64 h (shr64 h 32).

(** byteHasher, hash.go:93-103 *)
Definition byte_hasher (key : Z) : Z :=
  let h := add64 prime5 1 in
  let h := xor64 h (mul64 key prime5) in
  let h := mul64 (rotl64 h 11) prime1 in
  finish h.
(** wordHasher, hash.go:106-118 *)
Definition word_hasher (key : Z) : Z :=
  let h := add64 prime5 2 in
  let h := xor64 h (mul64 (Z.land key 255) prime5) in
  let h := mul64 (rotl64 h 11) prime1 in
  let h := xor64 h (mul64 (Z.land (shr64 key 8) 255) prime5) in
  let h := mul64 (rotl64 h 11) prime1 in
  finish h.
(** dwordHasher, hash.go:121-131, and float32Hasher, hash.go:137-147 *)
Definition dword_hasher (key : Z) : Z :=
  let h := add64 prime5 4 in
  let h := xor64 h (mul64 key prime1) in
  let h := add64 (mul64 (rotl64 h 23) prime2) prime3 in
  finish h.
Definition float32_hasher (key : Z) : Z :=
  let h := add64 prime5 4 in
  let h := xor64 h (mul64 key prime1) in
  let h := add64 (mul64 (rotl64 h 23) prime2) prime3 in
  finish h.
(** qwordHasher, hash.go:150-162, float64Hasher, hash.go:166-178, and
    complex64Hasher, hash.go:181-193 *)
Definition qword_hasher (key : Z) : Z :=
  let k1 := mul64 key prime2 in
  let k1 := rotl64 k1 31 in
  let k1 := mul64 k1 prime1 in
  let h := xor64 (add64 prime5 8) k1 in
  let h := add64 (mul64 (rotl64 h 27) prime1) prime4 in
  finish h.
Definition float64_hasher (key : Z) : Z :=
  let k1 := mul64 key prime2 in
  let k1 := rotl64 k1 31 in
  let k1 := mul64 k1 prime1 in
  let h := xor64 (add64 prime5 8) k1 in
  let h := add64 (mul64 (rotl64 h 27) prime1) prime4 in
  finish h.
Definition complex64_hasher (key : Z) : Z :=
  let k1 := mul64 key prime2 in
  let k1 := rotl64 k1 31 in
  let k1 := mul64 k1 prime1 in
  let h := xor64 (add64 prime5 8) k1 in
  let h := add64 (mul64 (rotl64 h 27) prime1) prime4 in
  finish h.

(** the loop of hash.go:207-213 over the 32-byte blocks: the four accumulators
    and the rest of the slice *)
Fixpoint blocks (fuel : nat) (v1 v2 v3 v4 : Z) (b : list Z) : res (Z * Z * Z * Z * list Z) :=
  if decide (32 <= length b)%nat then
    match fuel with
    | O => Fuel
    | S fuel =>
        let! s1 := sub b 0 8 in let! x1 := u64 s1 in
        let! s2 := sub b 8 16 in let! x2 := u64 s2 in
        let! s3 := sub b 16 24 in let! x3 := u64 s3 in
        let! s4 := sub b 24 32 in let! x4 := u64 s4 in
        let! b := sub b 32 (length b) in
        blocks fuel (round v1 x1) (round v2 x2) (round v3 x3) (round v4 x4) b
    end
  else Ok (v1, v2, v3, v4, b).
(** the loop of hash.go:226-230 *)
Fixpoint qwords (fuel : nat) (h : Z) (i : nat) (b : list Z) : res (Z * nat) :=
  if decide (i + 8 <= length b)%nat then
    match fuel with
    | O => Fuel
    | S fuel =>
        let! s := sub b i (i + 8) in let! x := u64 s in
        let k1 := round 0 x in
        let h := xor64 h k1 in
        let h := add64 (mul64 (rotl64 h 27) prime1) prime4 in
        qwords fuel h (i + 8) b
    end
  else Ok (h, i).
(** the loop of hash.go:236-239 *)
Fixpoint tail_bytes (fuel : nat) (h : Z) (i : nat) (b : list Z) : res Z :=
  if decide (i < length b)%nat then
    match fuel with
    | O => Fuel
    | S fuel =>
        let! x := deref (b !! i) in
        let h := xor64 h (mul64 x prime5) in
        let h := mul64 (rotl64 h 11) prime1 in
        tail_bytes fuel h (i + 1) b
    end
  else Ok h.

(** stringHasher, hash.go:194-247 *)
Definition string_hasher (key : list Z) : res Z :=
  let n := length key in
  let! (h, b) :=
    (if decide (32 <= n)%nat then
       let! (v1, v2, v3, v4, b) := blocks n (add64 prime1 prime2) prime2 0 (neg64 prime1) key in
       let h := add64 (add64 (add64 (rotl64 v1 1) (rotl64 v2 7)) (rotl64 v3 12)) (rotl64 v4 18) in
       let h := merge_round h v1 in
       let h := merge_round h v2 in
       let h := merge_round h v3 in
       let h := merge_round h v4 in
       Ok (h, b)
     else Ok (prime5, key)) in
  let h := add64 h (wrap (Z.of_nat n)) in
  let! (h, i) := qwords n h 0 b in
  let! (h, i) :=
    (if decide (i + 4 <= length b)%nat then
       let! s := sub b i (i + 4) in let! x := u32 s in
       let h := xor64 h (mul64 x prime1) in
       let h := add64 (mul64 (rotl64 h 23) prime2) prime3 in
       Ok (h, (i + 4)%nat)
     else Ok (h, i)) in
  let! h := tail_bytes n h i b in
  Ok (finish h).

(** complex128Hasher, hash.go:248-279: the key is the array of the 16 bytes *)
Definition complex128_hasher (b : list Z) : res Z :=
  let! s := sub b 0 8 in let! val := u64 s in
  let h := add64 prime5 16 in
  let k1 := mul64 val prime2 in
  let k1 := rotl64 k1 31 in
  let k1 := mul64 k1 prime1 in
  let h := xor64 h k1 in
  let h := add64 (mul64 (rotl64 h 27) prime1) prime4 in
  let! s := sub b 8 16 in let! val := u64 s in
  let k1 := mul64 val prime2 in
  let k1 := rotl64 k1 31 in
  let k1 := mul64 k1 prime1 in
  let h := xor64 h k1 in
  let h := add64 (mul64 (rotl64 h 27) prime1) prime4 in
  Ok (finish h).

(** Types: the predeclared ones, and types defined from one of them
    (type T U).  byte and rune are other names of uint8 and int32. *)
Inductive basic := TString | TInt | TUint | TUintptr | TPointer | TInt8 | TUint8 | TInt16 | TUint16
  | TInt32 | TUint32 | TFloat32 | TInt64 | TUint64 | TFloat64 | TComplex64 | TComplex128 | TBool.
Inductive gotype := Predeclared (b : basic) | Defined (name : nat) (b : basic).
Definition underlying (T : gotype) : basic := match T with Predeclared b => b | Defined _ b => b end.
(** constraints.Hashable, util/constraints/builitn.go:10-54: a union of
    ~-elements, so it depends on the underlying type *)
Definition hashable (T : gotype) : bool :=
  match underlying T with TComplex64 | TComplex128 | TBool => false | _ => true end.

(** the hasher a type is given *)
Inductive hasher := HString | HByte | HWord | HDword | HQword | HFloat32 | HFloat64 | HComplex64 | HComplex128.
(** GetHashFunc, hash.go:286-329: the type switch compares the dynamic type of
    the zero value, so a case matches a predeclared type only; [None] is nil.
    [int_size] is intSizeBytes, hash.go:55. *)
Definition get_hash_func (int_size : Z) (T : gotype) : option hasher :=
  match T with
  | Defined _ _ => None
  | Predeclared b =>
      match b with
      | TString => Some HString
      | TInt | TUint | TUintptr | TPointer =>
          if int_size =? 2 then Some HWord
          else if int_size =? 4 then Some HDword
          else if int_size =? 8 then Some HQword
          else None
      | TInt8 | TUint8 => Some HByte
      | TInt16 | TUint16 => Some HWord
      | TInt32 | TUint32 => Some HDword
      | TFloat32 => Some HFloat32
      | TInt64 | TUint64 => Some HQword
      | TFloat64 => Some HFloat64
      | TComplex64 => Some HComplex64
      | TComplex128 => Some HComplex128
      | TBool => None
      end
  end.

(** a key: the bytes of a string or of a complex128, or the bit pattern of
    another fixed-size value *)
Inductive key := KStr (b : list Z) | KBits (bits : Z).
Definition run_hasher (f : hasher) (k : key) : res Z :=
  match f, k with
  | HString, KStr b => string_hasher b
  | HByte, KBits x => Ok (byte_hasher x)
  | HWord, KBits x => Ok (word_hasher x)
  | HDword, KBits x => Ok (dword_hasher x)
  | HFloat32, KBits x => Ok (float32_hasher x)
  | HQword, KBits x => Ok (qword_hasher x)
  | HFloat64, KBits x => Ok (float64_hasher x)
  | HComplex64, KBits x => Ok (complex64_hasher x)
  | HComplex128, KStr b => complex128_hasher b
  | _, _ => Panic
  end.
(** Hash, hash.go:282-284: calling a nil function panics *)
Definition hash (int_size : Z) (T : gotype) (k : key) : res Z :=
  let! f := deref (get_hash_func int_size T) in run_hasher f k.
