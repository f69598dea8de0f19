(** The hashers compute XXH64; injectivity. *)
From Verif Require Import Base Hash_Model Hash_Spec.

Local Open Scope Z_scope.

Lemma lor_add a b k : 0 <= k -> 0 <= a < 2 ^ k -> Z.lor (b * 2 ^ k) a = b * 2 ^ k + a.
Proof.
  intros Hk Ha. assert (E : Z.land (b * 2 ^ k) a = 0).
  { apply Z.bits_inj'. intros n Hn. rewrite Z.land_spec, Z.bits_0. destruct (Z.ltb_spec n k) as [L|G].
    - by rewrite Z.mul_pow2_bits_low.
    - rewrite <-(Z.mod_small a (2 ^ k)) by done. rewrite Z.mod_pow2_bits_high by lia. apply andb_false_r. }
  rewrite Z.add_nocarry_lxor by done. by rewrite Z.lxor_lor.
Qed.

Definition R (x : Z) : Prop := 0 <= x < 2 ^ 64.
Lemma R_mod x : R (x mod 2 ^ 64).
Proof. apply Z.mod_pos_bound. lia. Qed.
Lemma R_wrap x : R (wrap x). Proof. apply R_mod. Qed.
Lemma R_mod64 x : R (mod64 x). Proof. apply R_mod. Qed.
Lemma R_lxor a b : R a -> R b -> R (Z.lxor a b).
Proof.
  unfold R. intros [A1 A2] [B1 B2]. split; [by apply Z.lxor_nonneg; lia|].
  destruct (Z.eq_dec (Z.lxor a b) 0) as [->|N]; [lia|].
  assert (0 < Z.lxor a b). { pose proof (proj2 (Z.lxor_nonneg a b) ltac:(lia)). lia. }
  apply Z.log2_lt_pow2; [lia|]. eapply Z.le_lt_trans; [by apply Z.log2_lxor|].
  apply Z.max_lub_lt; [destruct (Z.eq_dec a 0) as [->|]|destruct (Z.eq_dec b 0) as [->|]]; try (cbn; lia); apply Z.log2_lt_pow2; lia.
Qed.
Lemma R_div a k : R a -> 0 <= k -> R (a / 2 ^ k).
Proof.
  unfold R. intros H Hk. split; [apply Z.div_pos; lia|]. apply Z.le_lt_trans with a; [|lia]. apply Z.div_le_upper_bound; [lia|].
  assert (1 <= 2 ^ k) by (apply Z.pow_le_mono_r with (b := 0); lia). nia.
Qed.

Lemma rotl_rol x k : R x -> 0 < k < 64 -> rotl64 x k = rol x k.
Proof.
  unfold R. intros Hx Hk. unfold rotl64, rol, wrap, M64. rewrite Z.shiftl_mul_pow2, Z.shiftr_div_pow2 by lia.
  assert (E : 2 ^ 64 = 2 ^ (64 - k) * 2 ^ k) by (rewrite <-Z.pow_add_r by lia; f_equal; lia).
  assert (P1 : 0 < 2 ^ (64 - k)) by (apply Z.pow_pos_nonneg; lia).
  assert (P2 : 0 < 2 ^ k) by (apply Z.pow_pos_nonneg; lia).
  rewrite E at 1. rewrite Z.mul_mod_distr_r by lia. apply lor_add; [lia|].
  split; [apply Z.div_pos; lia|]. apply Z.div_lt_upper_bound; [lia|]. lia.
Qed.
Lemma R_rol x k : R x -> 0 < k < 64 -> R (rol x k).
Proof.
  unfold R, rol. intros Hx Hk.
  assert (E : 2 ^ 64 = 2 ^ (64 - k) * 2 ^ k) by (rewrite <-Z.pow_add_r by lia; f_equal; lia).
  assert (P1 : 0 < 2 ^ (64 - k)) by (apply Z.pow_pos_nonneg; lia).
  assert (P2 : 0 < 2 ^ k) by (apply Z.pow_pos_nonneg; lia).
  pose proof (Z.mod_pos_bound x (2 ^ (64 - k)) P1).
  assert (0 <= x / 2 ^ (64 - k) < 2 ^ k).
  { split; [apply Z.div_pos; lia|]. apply Z.div_lt_upper_bound; lia. }
  rewrite E. nia.
Qed.

(** ** Little-endian numbers *)
Lemma is_bytes_le_bytes n x : is_bytes (le_bytes n x).
Proof. revert x. induction n as [|n IH]; intros x; constructor; [apply Z.mod_pos_bound; lia|apply IH]. Qed.
Lemma le_bytes_length n x : length (le_bytes n x) = n.
Proof. revert x. induction n as [|n IH]; intros x; [done|]. cbn. by rewrite IH. Qed.
Lemma le_value_bytes n x : 0 <= x < 256 ^ Z.of_nat n -> le_value (le_bytes n x) = x.
Proof.
  revert x. induction n as [|n IH]; intros x Hx; cbn [le_bytes le_value].
  - cbn in Hx. lia.
  - rewrite IH.
    + pose proof (Z.div_mod x 256). lia.
    + rewrite Nat2Z.inj_succ, Z.pow_succ_r in Hx by lia. split; [apply Z.div_pos; lia|apply Z.div_lt_upper_bound; lia].
Qed.

Lemma lor_step acc b k : 0 <= k -> 0 <= acc < 2 ^ k -> Z.lor acc (Z.shiftl b k) = acc + b * 2 ^ k.
Proof. intros Hk Ha. rewrite Z.lor_comm, Z.shiftl_mul_pow2 by lia. rewrite lor_add by done. lia. Qed.

Lemma u64_ok bs : is_bytes bs -> length bs = 8%nat -> u64 bs = Ok (le_value bs).
Proof.
  intros B L. destruct bs as [|b0 [|b1 [|b2 [|b3 [|b4 [|b5 [|b6 [|b7 [|]]]]]]]]]; try done.
  unfold is_bytes in B. repeat (apply Forall_cons in B as [? B]).
  unfold u64. f_equal.
  rewrite (lor_step b0) by lia. rewrite (lor_step (b0 + _)) by lia.
  repeat rewrite (lor_step (_ + _)) by lia. cbn [le_value]. lia.
Qed.
Lemma u32_ok bs : is_bytes bs -> length bs = 4%nat -> u32 bs = Ok (le_value bs).
Proof.
  intros B L. destruct bs as [|b0 [|b1 [|b2 [|b3 [|]]]]]; try done.
  unfold is_bytes in B. repeat (apply Forall_cons in B as [? B]).
  unfold u32. f_equal. rewrite (lor_step b0) by lia. repeat rewrite (lor_step (_ + _)) by lia. cbn [le_value]. lia.
Qed.
Lemma sub_ok (b : list Z) i j : (i <= j <= length b)%nat -> sub b i j = Ok (take (j - i) (drop i b)).
Proof. intros H. unfold sub. by rewrite decide_True. Qed.

(** ** The steps *)
Lemma p1_eq : prime1 = PRIME64_1. Proof. done. Qed.
Lemma p2_eq : prime2 = PRIME64_2. Proof. done. Qed.
Lemma p3_eq : prime3 = PRIME64_3. Proof. done. Qed.
Lemma p4_eq : prime4 = PRIME64_4. Proof. done. Qed.
Lemma p5_eq : prime5 = PRIME64_5. Proof. done. Qed.

Lemma wrap_mod64 x : wrap x = mod64 x. Proof. done. Qed.
Lemma mod64_add_l a b : mod64 (mod64 a + b) = mod64 (a + b).
Proof. apply Zplus_mod_idemp_l. Qed.
Lemma mod64_add_r a b : mod64 (a + mod64 b) = mod64 (a + b).
Proof. apply Zplus_mod_idemp_r. Qed.

Lemma round_ok a x : round a x = xround a x.
Proof.
  unfold round, xround, mul64, add64. rewrite !wrap_mod64, mod64_add_r.
  rewrite rotl_rol by (try apply R_mod64; lia). by rewrite p1_eq, p2_eq.
Qed.
Lemma R_xround a x : R (xround a x). Proof. apply R_mod64. Qed.
Lemma merge_ok a v : merge_round a v = merge_acc a v.
Proof.
  unfold merge_round, merge_acc, add64, mul64, xor64. rewrite !wrap_mod64, round_ok, mod64_add_l. by rewrite p1_eq, p4_eq.
Qed.
Lemma finish_ok a : finish a = avalanche a.
Proof.
  unfold finish, avalanche, mul64, xor64, shr64. rewrite !Z.shiftr_div_pow2 by lia. rewrite !wrap_mod64. by rewrite p2_eq, p3_eq.
Qed.
Lemma step27 h k : R h -> R k ->
  add64 (mul64 (rotl64 (xor64 h k) 27) prime1) prime4 = mod64 (rol (Z.lxor h k) 27 * PRIME64_1 + PRIME64_4).
Proof.
  intros Hh Hk. unfold add64, mul64, xor64. rewrite !wrap_mod64, mod64_add_l, rotl_rol by (try apply R_lxor; done || lia). by rewrite p1_eq, p4_eq.
Qed.
Lemma step23 h k : R h -> R k ->
  add64 (mul64 (rotl64 (xor64 h k) 23) prime2) prime3 = mod64 (rol (Z.lxor h k) 23 * PRIME64_2 + PRIME64_3).
Proof.
  intros Hh Hk. unfold add64, mul64, xor64. rewrite !wrap_mod64, mod64_add_l, rotl_rol by (try apply R_lxor; done || lia). by rewrite p2_eq, p3_eq.
Qed.
Lemma step11 h k : R h -> R k ->
  mul64 (rotl64 (xor64 h k) 11) prime1 = mod64 (rol (Z.lxor h k) 11 * PRIME64_1).
Proof.
  intros Hh Hk. unfold add64, mul64, xor64. rewrite !wrap_mod64, rotl_rol by (try apply R_lxor; done || lia). by rewrite p1_eq.
Qed.

(** ** The loops of the string hasher *)
Lemma bytes_take n bs : is_bytes bs -> is_bytes (take n bs). Proof. apply Forall_take. Qed.
Lemma bytes_drop n bs : is_bytes bs -> is_bytes (drop n bs). Proof. apply Forall_drop. Qed.

Lemma sub_u64 b i : is_bytes b -> (i + 8 <= length b)%nat ->
  rbind (sub b i (i + 8)) u64 = Ok (le_value (take 8 (drop i b))).
Proof.
  intros B L. rewrite sub_ok by lia. cbn [rbind]. replace (i + 8 - i)%nat with 8%nat by lia. apply u64_ok.
  - by apply bytes_take, bytes_drop.
  - rewrite take_length, drop_length. lia.
Qed.

Lemma rbind_assoc {A B C} (m : res A) (f : A -> res B) (g : B -> res C) : rbind m (fun x => rbind (f x) g) = rbind (rbind m f) g.
Proof. by destruct m. Qed.

Lemma blocks_ok fuel v1 v2 v3 v4 b : is_bytes b -> (length b <= fuel)%nat ->
  blocks fuel v1 v2 v3 v4 b = (let '((w1, w2, w3, w4), r) := stripes fuel (v1, v2, v3, v4) b in Ok (w1, w2, w3, w4, r)).
Proof.
  revert v1 v2 v3 v4 b. induction fuel as [|fuel IH]; intros v1 v2 v3 v4 b B L; cbn [blocks stripes].
  { by rewrite decide_False by lia. }
  destruct (decide (32 <= length b)%nat) as [G|G]; [|done].
  pose proof (sub_u64 b 0 B ltac:(lia)) as E1. pose proof (sub_u64 b 8 B ltac:(lia)) as E2.
  pose proof (sub_u64 b 16 B ltac:(lia)) as E3. pose proof (sub_u64 b 24 B ltac:(lia)) as E4.
  cbn [Nat.add] in E1, E2, E3, E4.
  rewrite (rbind_assoc (sub b 0 8)), E1. cbn [rbind]. rewrite (rbind_assoc (sub b 8 16)), E2. cbn [rbind].
  rewrite (rbind_assoc (sub b 16 24)), E3. cbn [rbind]. rewrite (rbind_assoc (sub b 24 32)), E4. cbn [rbind].
  rewrite sub_ok by lia. cbn [rbind]. rewrite (take_ge (drop 32 b)) by (rewrite drop_length; lia).
  rewrite IH; [|by apply bytes_drop|rewrite drop_length; lia].
  unfold stripe. rewrite !round_ok. by rewrite drop_0.
Qed.
Lemma stripes_R fuel acc b : is_bytes b ->
  (let '(a1, a2, a3, a4) := acc in R a1 /\ R a2 /\ R a3 /\ R a4) ->
  let '((a1, a2, a3, a4), r) := stripes fuel acc b in (R a1 /\ R a2 /\ R a3 /\ R a4) /\ is_bytes r.
Proof.
  revert acc b. induction fuel as [|fuel IH]; intros [[[a1 a2] a3] a4] b B H; cbn [stripes]; [done|].
  destruct (decide _); [|done]. apply IH; [by apply bytes_drop|]. unfold stripe. splits; apply R_xround.
Qed.

Lemma qwords_ok fuel h i b : is_bytes b -> R h -> (length b <= i + fuel)%nat -> (i <= length b)%nat ->
  exists h' i', qwords fuel h i b = Ok (h', i') /\ lanes8 fuel h (drop i b) = (h', drop i' b) /\ R h' /\ (i' <= length b)%nat.
Proof.
  revert h i. induction fuel as [|fuel IH]; intros h i B Hh L Li; cbn [qwords lanes8].
  { rewrite decide_False by lia. by exists h, i. }
  rewrite drop_length. destruct (decide (i + 8 <= length b)%nat) as [G|G].
  - rewrite decide_True by lia. pose proof (sub_u64 b i B G) as E1.
    rewrite (rbind_assoc (sub b i (i + 8))), E1. cbn [rbind]. cbv zeta.
    rewrite round_ok, step27 by (done || apply R_xround). rewrite drop_drop.
    apply IH; [done|apply R_mod64|lia|lia].
  - rewrite decide_False by lia. by exists h, i.
Qed.
Lemma tail_ok fuel h i b : is_bytes b -> R h -> (length b <= i + fuel)%nat -> (i <= length b)%nat ->
  tail_bytes fuel h i b = Ok (lanes1 h (drop i b)).
Proof.
  revert h i. induction fuel as [|fuel IH]; intros h i B Hh L Li; cbn [tail_bytes].
  { rewrite decide_False by lia. by rewrite drop_ge by lia. }
  destruct (decide (i < length b)%nat) as [G|G]; [|by rewrite drop_ge by lia].
  destruct (lookup_lt_is_Some_2 b i G) as [x Hx]. rewrite Hx. cbn [deref rbind]. cbv zeta.
  rewrite (drop_S b x i Hx). cbn [lanes1]. rewrite step11 by (done || apply R_wrap).
  replace (i + 1)%nat with (S i) by lia. rewrite IH; [|done|apply R_mod64|lia|lia]. by rewrite p5_eq.
Qed.

Lemma lane4_ok b i h : is_bytes b -> R h -> (i <= length b)%nat ->
  exists h' i', (if decide (i + 4 <= length b)%nat then
       let! s := sub b i (i + 4) in let! x := u32 s in
       let h := xor64 h (mul64 x prime1) in
       let h := add64 (mul64 (rotl64 h 23) prime2) prime3 in
       Ok (h, (i + 4)%nat)
     else Ok (h, i)) = Ok (h', i') /\ lane4 h (drop i b) = (h', drop i' b) /\ R h' /\ (i' <= length b)%nat.
Proof.
  intros B Hh L. unfold lane4. rewrite drop_length. destruct (decide (i + 4 <= length b)%nat) as [G|G].
  - rewrite decide_True by lia. rewrite sub_ok by lia. cbn [rbind]. replace (i + 4 - i)%nat with 4%nat by lia.
    rewrite u32_ok; [|by apply bytes_take, bytes_drop|rewrite take_length, drop_length; lia]. cbn [rbind]. cbv zeta.
    rewrite step23 by (done || apply R_wrap). rewrite drop_drop. eexists _, _. split; [done|]. split; [done|]. split; [apply R_mod64|lia].
  - rewrite decide_False by lia. by exists h, i.
Qed.

Lemma lanes8_fuel fuel fuel' a b : (length b <= fuel)%nat -> (length b <= fuel')%nat -> lanes8 fuel a b = lanes8 fuel' a b.
Proof.
  revert fuel' a b. induction fuel as [|fuel IH]; intros [|fuel'] a b L1 L2; cbn [lanes8]; try done.
  - by rewrite decide_False by lia.
  - by rewrite decide_False by lia.
  - destruct (decide _); [|done]. apply IH; rewrite drop_length; lia.
Qed.
Lemma stripes_length fuel acc b : (length (stripes fuel acc b).2 <= length b)%nat.
Proof.
  revert acc b. induction fuel as [|fuel IH]; intros acc b; cbn [stripes]; [done|]. destruct (decide _); [|done].
  etrans; [apply IH|]. rewrite drop_length. lia.
Qed.

Theorem string_hasher_ok b : is_bytes b -> string_hasher b = Ok (xxh64 0 b).
Proof.
  intros B. unfold string_hasher, xxh64.
  assert (Tail : forall h r, R h -> is_bytes r -> (length r <= length b)%nat ->
    (let! (h0, i) := qwords (length b) (add64 h (wrap (Z.of_nat (length b)))) 0 r in
     let! (h0, i) :=
       (if decide (i + 4 <= length r)%nat then
          let! s := sub r i (i + 4) in let! x := u32 s in
          let h := xor64 h0 (mul64 x prime1) in
          let h := add64 (mul64 (rotl64 h 23) prime2) prime3 in
          Ok (h, (i + 4)%nat)
        else Ok (h0, i)) in
     let! h0 := tail_bytes (length b) h0 i r in
     Ok (finish h0))
    = Ok (let a := mod64 (h + Z.of_nat (length b)) in
          let '(a, rest) := lanes8 (length r) a r in
          let '(a, rest) := lane4 a rest in
          avalanche (lanes1 a rest))).
  { intros h r Hh Br Lr.
    assert (Eh : add64 h (wrap (Z.of_nat (length b))) = mod64 (h + Z.of_nat (length b))).
    { unfold add64. by rewrite !wrap_mod64, mod64_add_r. }
    rewrite Eh. cbv zeta. set (a := mod64 (h + Z.of_nat (length b))).
    destruct (qwords_ok (length b) a 0 r Br (R_mod64 _) ltac:(lia) ltac:(lia)) as (h1 & i1 & E1 & S1 & R1 & L1).
    rewrite E1. cbn [rbind]. rewrite drop_0 in S1. rewrite (lanes8_fuel _ (length b) a r) by lia. rewrite S1.
    destruct (lane4_ok r i1 h1 Br R1 L1) as (h2 & i2 & E2 & S2 & R2 & L2).
    cbv zeta in E2. rewrite E2. cbn [rbind]. rewrite S2. rewrite tail_ok by (done || lia). cbn [rbind]. by rewrite finish_ok. }
  destruct (decide (32 <= length b)%nat) as [G|G].
  - assert (E0 : (add64 prime1 prime2, prime2, 0, neg64 prime1) = (mod64 (0 + PRIME64_1 + PRIME64_2), mod64 (0 + PRIME64_2), 0, mod64 (0 - PRIME64_1))) by by vm_compute.
    rewrite blocks_ok by done. rewrite E0.
    set (acc0 := (mod64 (0 + PRIME64_1 + PRIME64_2), mod64 (0 + PRIME64_2), 0, mod64 (0 - PRIME64_1))).
    pose proof (stripes_R (length b) acc0 b B) as HR. pose proof (stripes_length (length b) acc0 b) as HL.
    destruct (stripes (length b) acc0 b) as [[[[a1 a2] a3] a4] r]. cbn [snd] in HL.
    destruct HR as [(R1 & R2 & R3 & R4) Br].
    { unfold acc0. splits; try apply R_mod64. unfold R. lia. }
    cbn [rbind]. cbv zeta.
    assert (Ea : add64 (add64 (add64 (rotl64 a1 1) (rotl64 a2 7)) (rotl64 a3 12)) (rotl64 a4 18) = mod64 (rol a1 1 + rol a2 7 + rol a3 12 + rol a4 18)).
    { unfold add64. rewrite !wrap_mod64. rewrite !rotl_rol by (done || lia). rewrite mod64_add_l.
      rewrite <-(Z.add_assoc (mod64 (rol a1 1 + rol a2 7))). rewrite mod64_add_l. f_equal. lia. }
    rewrite Ea, !merge_ok. cbn [rbind]. apply Tail; [apply R_mod64|done|done].
  - cbn [rbind]. change prime5 with (mod64 (0 + PRIME64_5)). apply Tail; [apply R_mod64|done|done].
Qed.
