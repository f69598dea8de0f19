(** Fixed-size hashers, injectivity, floats. *)
From Verif Require Import Base Hash_Model Hash_Spec Hash_Proofs.
From Coq Require Import Sorting.Mergesort Orders.

Local Open Scope Z_scope.

Lemma xxh64_short b : (length b < 32)%nat ->
  xxh64 0 b = (let a := mod64 (PRIME64_5 + Z.of_nat (length b)) in
               let '(a, rest) := lanes8 (length b) a b in
               let '(a, rest) := lane4 a rest in avalanche (lanes1 a rest)).
Proof. intros L. unfold xxh64. rewrite decide_False by lia. by rewrite mod64_add_l. Qed.

Lemma byte_hasher_ok k : 0 <= k < 2 ^ 8 -> byte_hasher k = xxh64 0 (le_bytes 1 k).
Proof.
  intros Hk. cbn [le_bytes]. rewrite Z.mod_small by lia. rewrite xxh64_short by (cbn; lia).
  cbn [length lanes8 lane4]. cbv zeta. rewrite decide_False by lia. unfold lane4. cbn [length]. rewrite decide_False by lia. cbn [lanes1].
  unfold byte_hasher. cbv zeta. rewrite finish_ok. rewrite step11 by (apply R_wrap). by rewrite p5_eq.
Qed.
Lemma word_hasher_ok k : 0 <= k < 2 ^ 16 -> word_hasher k = xxh64 0 (le_bytes 2 k).
Proof.
  intros Hk. cbn [le_bytes]. rewrite (Z.mod_small (k / 256)) by (split; [apply Z.div_pos|apply Z.div_lt_upper_bound]; lia).
  rewrite xxh64_short by (cbn; lia).
  cbn [length lanes8]. cbv zeta. rewrite decide_False by lia. unfold lane4. cbn [length]. rewrite decide_False by lia. cbn [lanes1].
  unfold word_hasher. cbv zeta. rewrite finish_ok.
  assert (E1 : Z.land k 255 = k mod 256). { change 255 with (Z.ones 8). by rewrite Z.land_ones by lia. }
  assert (E2 : Z.land (shr64 k 8) 255 = k / 256).
  { change 255 with (Z.ones 8). rewrite Z.land_ones by lia. unfold shr64. rewrite Z.shiftr_div_pow2 by lia.
    apply Z.mod_small. split; [apply Z.div_pos|apply Z.div_lt_upper_bound]; lia. }
  rewrite E1, E2. rewrite !step11 by (apply R_wrap). by rewrite p5_eq.
Qed.
Lemma dword_hasher_ok k : 0 <= k < 2 ^ 32 -> dword_hasher k = xxh64 0 (le_bytes 4 k).
Proof.
  intros Hk. rewrite xxh64_short by (rewrite le_bytes_length; lia). rewrite le_bytes_length. cbn [lanes8]. cbv zeta.
  rewrite le_bytes_length, decide_False by lia. unfold lane4. rewrite le_bytes_length, decide_True by lia.
  rewrite take_ge by (rewrite le_bytes_length; lia). rewrite drop_ge by (rewrite le_bytes_length; lia).
  rewrite le_value_bytes by (cbn; lia). cbn [lanes1]. unfold dword_hasher. cbv zeta.
  rewrite finish_ok, step23 by apply R_wrap. by rewrite p1_eq.
Qed.
Lemma lanes8_8 a k : (0 <= k < 2 ^ 64) ->
  lanes8 8 a (le_bytes 8 k) = (mod64 (rol (Z.lxor a (xround 0 k)) 27 * PRIME64_1 + PRIME64_4), []).
Proof.
  intros Hk. remember (le_bytes 8 k) as b eqn:Eb. assert (L : length b = 8%nat) by by subst b; apply le_bytes_length.
  cbn [lanes8]. rewrite decide_True by lia. rewrite take_ge by lia. rewrite drop_ge by lia. cbn [length]. rewrite decide_False by lia.
  subst b. by rewrite le_value_bytes by (cbn; lia).
Qed.
Lemma qround k : rotl64 (mul64 k prime2) 31 = rotl64 (add64 0 (mul64 k prime2)) 31.
Proof. unfold add64, mul64, wrap. by rewrite Z.add_0_l, Zmod_mod. Qed.
Lemma qround_ok k : mul64 (rotl64 (mul64 k prime2) 31) prime1 = xround 0 k.
Proof. rewrite qround. apply round_ok. Qed.
Lemma qword_hasher_ok k : 0 <= k < 2 ^ 64 -> qword_hasher k = xxh64 0 (le_bytes 8 k).
Proof.
  intros Hk. rewrite xxh64_short by (rewrite le_bytes_length; lia). rewrite le_bytes_length. cbv zeta.
  rewrite lanes8_8 by done. unfold lane4. cbn [length]. rewrite decide_False by lia. cbn [lanes1].
  unfold qword_hasher. cbv zeta. rewrite qround_ok, finish_ok, step27 by (apply R_wrap || apply R_xround). done.
Qed.
Lemma lanes8_step f a b : (8 <= length b)%nat ->
  lanes8 (S f) a b = lanes8 f (mod64 (rol (Z.lxor a (xround 0 (le_value (take 8 b)))) 27 * PRIME64_1 + PRIME64_4)) (drop 8 b).
Proof. intros L. cbn [lanes8]. by rewrite decide_True. Qed.
Lemma lanes8_done f a b : (length b < 8)%nat -> lanes8 f a b = (a, b).
Proof. intros L. destruct f; [done|]. cbn [lanes8]. by rewrite decide_False by lia. Qed.
Lemma complex128_hasher_ok b : is_bytes b -> length b = 16%nat -> complex128_hasher b = Ok (xxh64 0 b).
Proof.
  intros B L. rewrite xxh64_short by lia. rewrite L. cbv zeta. unfold complex128_hasher.
  pose proof (sub_u64 b 0 B ltac:(lia)) as E1. pose proof (sub_u64 b 8 B ltac:(lia)) as E2. cbn [Nat.add] in E1, E2.
  rewrite (rbind_assoc (sub b 0 8)), E1. cbn [rbind]. rewrite (rbind_assoc (sub b 8 16)), E2. cbn [rbind]. cbv zeta.
  rewrite lanes8_step by lia. rewrite lanes8_step by (rewrite drop_length; lia). rewrite lanes8_done by (rewrite !drop_length; lia).
  rewrite drop_drop. rewrite (drop_ge b (8 + 8)) by (rewrite L; cbn; lia). unfold lane4. cbn [length]. rewrite decide_False by lia. cbn [lanes1].
  rewrite !qround_ok, drop_0. rewrite !step27 by (apply R_wrap || apply R_xround || apply R_mod64). by rewrite finish_ok.
Qed.

(** ** Injectivity of the steps *)
Lemma lxor_shift_inj k x y : 0 < k -> R x -> R y -> Z.lxor x (x / 2 ^ k) = Z.lxor y (y / 2 ^ k) -> x = y.
Proof.
  intros Hk [Hx _] [Hy _] E. rewrite <-!Z.shiftr_div_pow2 in E by lia.
  assert (Ez : Z.lxor x y = Z.shiftr (Z.lxor x y) k).
  { rewrite Z.shiftr_lxor. apply Z.bits_inj'. intros n Hn.
    assert (Eb : Z.testbit (Z.lxor x (Z.shiftr x k)) n = Z.testbit (Z.lxor y (Z.shiftr y k)) n) by by rewrite E.
    rewrite !Z.lxor_spec in *. destruct (Z.testbit x n), (Z.testbit y n), (Z.testbit (Z.shiftr x k) n), (Z.testbit (Z.shiftr y k) n); done. }
  apply Z.lxor_eq. rewrite Z.shiftr_div_pow2 in Ez by lia.
  assert (0 <= Z.lxor x y) by (apply Z.lxor_nonneg; lia).
  assert (2 <= 2 ^ k). { change 2 with (2 ^ 1) at 1. apply Z.pow_le_mono_r; lia. }
  destruct (Z.eq_dec (Z.lxor x y) 0) as [|N]; [done|].
  assert (Z.lxor x y / 2 ^ k < Z.lxor x y) by (apply Z.div_lt; lia). lia.
Qed.
Lemma mul_inj p q x y : (p * q) mod 2 ^ 64 = 1 -> R x -> R y -> mod64 (x * p) = mod64 (y * p) -> x = y.
Proof.
  intros Hpq Hx Hy E.
  assert (F : forall z, R z -> mod64 (mod64 (z * p) * q) = z).
  { intros z Hz. unfold mod64. rewrite Zmult_mod_idemp_l. rewrite <-Z.mul_assoc, <-Zmult_mod_idemp_r, Hpq, Z.mul_1_r. by apply Z.mod_small. }
  rewrite <-(F x Hx), <-(F y Hy). by rewrite E.
Qed.
Lemma add_inj c x y : R x -> R y -> mod64 (x + c) = mod64 (y + c) -> x = y.
Proof.
  intros Hx Hy E. assert (F : forall z, R z -> mod64 (mod64 (z + c) - c) = z).
  { intros z Hz. unfold mod64. rewrite Zminus_mod_idemp_l. replace (z + c - c) with z by lia. by apply Z.mod_small. }
  rewrite <-(F x Hx), <-(F y Hy). by rewrite E.
Qed.
Lemma rol_inj k x y : 0 < k < 64 -> R x -> R y -> rol x k = rol y k -> x = y.
Proof.
  unfold R, rol. intros Hk Hx Hy E.
  assert (E2 : 2 ^ 64 = 2 ^ (64 - k) * 2 ^ k) by (rewrite <-Z.pow_add_r by lia; f_equal; lia).
  assert (P1 : 0 < 2 ^ (64 - k)) by (apply Z.pow_pos_nonneg; lia).
  assert (P2 : 0 < 2 ^ k) by (apply Z.pow_pos_nonneg; lia).
  assert (Q : forall z, 0 <= z < 2 ^ 64 -> 0 <= z / 2 ^ (64 - k) < 2 ^ k).
  { intros z Hz. split; [apply Z.div_pos; lia|]. apply Z.div_lt_upper_bound; lia. }
  pose proof (Q x Hx) as Qx. pose proof (Q y Hy) as Qy.
  destruct (Z.div_mod_unique (2 ^ k) (x mod 2 ^ (64 - k)) (y mod 2 ^ (64 - k)) (x / 2 ^ (64 - k)) (y / 2 ^ (64 - k))) as [A B]; [lia|lia|lia|].
  rewrite (Z.div_mod x (2 ^ (64 - k))), (Z.div_mod y (2 ^ (64 - k))) by lia. by rewrite A, B.
Qed.
Lemma lxor_inj c x y : Z.lxor c x = Z.lxor c y -> x = y.
Proof.
  intros E. assert (F : forall z, Z.lxor c (Z.lxor c z) = z) by (intros z; by rewrite <-Z.lxor_assoc, Z.lxor_nilpotent, Z.lxor_0_l).
  by rewrite <-(F x), <-(F y), E.
Qed.

(** the inverses modulo 2^64 *)
Lemma inv1 : (PRIME64_1 * 0x0887493432badb37) mod 2 ^ 64 = 1. Proof. by vm_compute. Qed.
Lemma inv2 : (PRIME64_2 * 0x0ba79078168d4baf) mod 2 ^ 64 = 1. Proof. by vm_compute. Qed.
Lemma inv3 : (PRIME64_3 * 0xe9e9f4c41d6df849) mod 2 ^ 64 = 1. Proof. by vm_compute. Qed.
Lemma inv5 : (PRIME64_5 * 0xc592c09fdfba7f0d) mod 2 ^ 64 = 1. Proof. by vm_compute. Qed.

Lemma avalanche_inj x y : R x -> R y -> avalanche x = avalanche y -> x = y.
Proof.
  intros Hx Hy. unfold avalanche. cbv zeta. intros E.
  apply lxor_shift_inj in E; [|lia|apply R_mod64..].
  apply (mul_inj _ _ _ _ inv3) in E; [|apply R_lxor; [apply R_mod64|apply R_div; [apply R_mod64|lia]]..].
  apply lxor_shift_inj in E; [|lia|apply R_mod64..].
  apply (mul_inj _ _ _ _ inv2) in E; [|apply R_lxor; [done|apply R_div; [done|lia]]..].
  by apply lxor_shift_inj in E; [|lia|..].
Qed.
Lemma R_small k n : 0 <= n <= 64 -> 0 <= k < 2 ^ n -> R k.
Proof. intros Hn Hk. unfold R. assert (2 ^ n <= 2 ^ 64) by (apply Z.pow_le_mono_r; lia). lia. Qed.

Lemma xround_inj a x y : R a -> R x -> R y -> xround a x = xround a y -> x = y.
Proof.
  intros Ha Hx Hy E. unfold xround in E. apply (mul_inj _ _ _ _ inv1) in E; [|apply R_rol; [apply R_mod64|lia]..].
  apply rol_inj in E; [|lia|apply R_mod64..]. rewrite (Z.add_comm a), (Z.add_comm a (y * _)) in E.
  rewrite <-(mod64_add_l (x * _)), <-(mod64_add_l (y * _)) in E. apply add_inj in E; [|apply R_mod64..].
  by apply (mul_inj _ _ _ _ inv2) in E.
Qed.

Lemma byte_hasher_inj x y : 0 <= x < 2 ^ 8 -> 0 <= y < 2 ^ 8 -> byte_hasher x = byte_hasher y -> x = y.
Proof.
  intros Hx Hy. unfold byte_hasher. cbv zeta. rewrite !finish_ok, !step11 by apply R_wrap. intros E.
  apply avalanche_inj in E; [|apply R_mod64..].
  apply (mul_inj _ _ _ _ inv1) in E; [|apply R_rol; [apply R_lxor; apply R_wrap|lia]..].
  apply rol_inj in E; [|lia|apply R_lxor; apply R_wrap..]. apply lxor_inj in E.
  unfold mul64 in E. rewrite !wrap_mod64, p5_eq in E.
  apply (mul_inj _ _ _ _ inv5) in E; [done|by apply (R_small _ 8)..].
Qed.
Lemma dword_hasher_inj x y : 0 <= x < 2 ^ 32 -> 0 <= y < 2 ^ 32 -> dword_hasher x = dword_hasher y -> x = y.
Proof.
  intros Hx Hy. unfold dword_hasher. cbv zeta. rewrite !finish_ok, !step23 by apply R_wrap. intros E.
  apply avalanche_inj in E; [|apply R_mod64..].
  rewrite <-(mod64_add_l (_ * _)), <-(mod64_add_l (rol (Z.lxor _ (mul64 y _)) _ * _)) in E. apply add_inj in E; [|apply R_mod64..].
  apply (mul_inj _ _ _ _ inv2) in E; [|apply R_rol; [apply R_lxor; apply R_wrap|lia]..].
  apply rol_inj in E; [|lia|apply R_lxor; apply R_wrap..]. apply lxor_inj in E.
  unfold mul64 in E. rewrite !wrap_mod64, p1_eq in E.
  apply (mul_inj _ _ _ _ inv1) in E; [done|by apply (R_small _ 32)..].
Qed.
Lemma qword_hasher_inj x y : R x -> R y -> qword_hasher x = qword_hasher y -> x = y.
Proof.
  intros Hx Hy. unfold qword_hasher. cbv zeta. rewrite !qround_ok, !finish_ok, !step27 by (apply R_wrap || apply R_xround). intros E.
  apply avalanche_inj in E; [|apply R_mod64..].
  rewrite <-(mod64_add_l (_ * _)), <-(mod64_add_l (rol (Z.lxor _ (xround 0 y)) _ * _)) in E. apply add_inj in E; [|apply R_mod64..].
  apply (mul_inj _ _ _ _ inv1) in E; [|apply R_rol; [apply R_lxor; [apply R_wrap|apply R_xround]|lia]..].
  apply rol_inj in E; [|lia|apply R_lxor; [apply R_wrap|apply R_xround]..]. apply lxor_inj in E.
  apply xround_inj in E; [done|unfold R; lia|done..].
Qed.
