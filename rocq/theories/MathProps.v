(** Final theorems about math.hpp, interval.hpp and endian.hpp: properties C14-C17, C20. *)
From Verif Require Import Base Bits MathModel.
From Coq Require Import ZifyBool ZifyNat.
Ltac Zify.zify_post_hook ::= Z.div_mod_to_equations.

Definition is_u64 (x : Z) : Prop := 0 <= x < 2 ^ 64.
Definition is_u32 (x : Z) : Prop := 0 <= x < 2 ^ 32.
Definition is_i32 (x : Z) : Prop := - 2 ^ 31 <= x < 2 ^ 31.
Definition is_i64 (x : Z) : Prop := - 2 ^ 63 <= x < 2 ^ 63.
Ltac unfold_ranges := unfold is_u64, is_u32, is_i32, is_i64 in *;
  change (2 ^ 64) with 18446744073709551616 in *; change (2 ^ 32) with 4294967296 in *;
  change (2 ^ 63) with 9223372036854775808 in *; change (2 ^ 31) with 2147483648 in *.

(** C14.  The exact result, or an exception exactly when it does not fit; both branches. *)
Theorem mul_checked : forall a b, is_u64 a -> is_u64 b ->
  (a * b < 2 ^ 64 -> mul a b = Ret (a * b) /\ mul_portable a b = Ret (a * b)) /\
  (2 ^ 64 <= a * b -> mul a b = Throw /\ mul_portable a b = Throw).
Proof.
  intros a b Ha Hb. unfold_ranges. unfold mul, mul_portable. split; intros H.
  - destruct (Z.ltb_spec (a * b) M64); [|lia]. split; auto. destruct (Z.eqb_spec a 0); [subst; auto|].
    assert (b <= (M64 - 1) / a) by (apply Z.div_le_lower_bound; lia).
    destruct (Z.leb_spec b ((M64 - 1) / a)); [|lia]. rewrite u64_small by nia. reflexivity.
  - destruct (Z.ltb_spec (a * b) M64); [lia|]. split; auto. destruct (Z.eqb_spec a 0); [subst; lia|].
    destruct (Z.leb_spec b ((M64 - 1) / a)) as [L|L]; auto.
    assert (a * ((M64 - 1) / a) <= M64 - 1) by (apply Z.mul_div_le; lia). nia.
Qed.
Theorem add_checked : forall a b, is_u64 a -> is_u64 b ->
  (a + b < 2 ^ 64 -> add a b = Ret (a + b) /\ add_portable a b = Ret (a + b)) /\
  (2 ^ 64 <= a + b -> add a b = Throw /\ add_portable a b = Throw).
Proof.
  intros a b Ha Hb. unfold_ranges. unfold add, add_portable. rewrite (u64_small (M64 - 1 - b)) by lia. split; intros H.
  - destruct (Z.ltb_spec (a + b) M64); [|lia]. split; auto. destruct (Z.leb_spec a (M64 - 1 - b)); [|lia].
    rewrite u64_small by lia. reflexivity.
  - destruct (Z.ltb_spec (a + b) M64); [lia|]. split; auto. destruct (Z.leb_spec a (M64 - 1 - b)); [lia|]. reflexivity.
Qed.
Example mul_ex : mul (2 ^ 32) (2 ^ 32 - 1) = Ret (2 ^ 64 - 2 ^ 32) /\ mul (2 ^ 32) (2 ^ 32) = Throw.
Proof. split; reflexivity. Qed.

(** C15, 32-bit: the exact quotient, rounded toward zero, whenever it fits. *)
Theorem muldiv32_exact : forall n k q,
  (is_i32 n -> is_i32 k -> is_i32 q -> q <> 0 -> is_i32 (Z.quot (n * k) q) -> muldiv_i32 n k q = Ret (Z.quot (n * k) q)) /\
  (is_u32 n -> is_u32 k -> is_u32 q -> q <> 0 -> n * k / q < 2 ^ 32 -> muldiv_u32 n k q = Ret (n * k / q)).
Proof.
  intros n k q. split; intros Hn Hk Hq Hz Hr; unfold_ranges; unfold muldiv_i32, muldiv_u32; destruct (Z.eqb_spec q 0); try lia; f_equal.
  - unfold i32. rewrite Z.mod_small by lia. lia.
  - apply u32_small. split; [|lia]. apply Z.div_pos; nia.
Qed.
(** C15, 64-bit: exact when the product itself fits. *)
Theorem muldiv64_partial : forall n k q,
  (is_i64 n -> is_i64 k -> is_i64 q -> q <> 0 -> is_i64 (n * k) -> is_i64 (Z.quot (n * k) q) -> muldiv_i64 n k q = Ret (Z.quot (n * k) q)) /\
  (is_u64 n -> is_u64 k -> is_u64 q -> q <> 0 -> n * k < 2 ^ 64 -> muldiv_u64 n k q = Ret (n * k / q)).
Proof.
  intros n k q. split.
  - intros Hn Hk Hq Hz Hp Hr. unfold_ranges. unfold muldiv_i64, fits_i64. destruct (Z.eqb_spec q 0); [lia|]. cbn [orb].
    destruct (Z.leb_spec (-9223372036854775808) (n * k)); [|lia]. destruct (Z.leb_spec (n * k) 9223372036854775807); [|lia].
    destruct (Z.leb_spec (-9223372036854775808) (Z.quot (n * k) q)); [|lia]. destruct (Z.leb_spec (Z.quot (n * k) q) 9223372036854775807); [|lia]. reflexivity.
  - intros Hn Hk Hq Hz Hp. unfold_ranges. unfold muldiv_u64. destruct (Z.eqb_spec q 0); [lia|]. rewrite u64_small by nia. reflexivity.
Qed.
(** C15 is violated by the 64-bit overloads: the quotient fits, the product does not. *)
Theorem muldiv64_refuted :
  muldiv_u64 (2 ^ 63) 2 2 = Ret 0 /\ 2 ^ 63 * 2 / 2 = 2 ^ 63 /\
  muldiv_i64 (2 ^ 62) 4 4 = UB /\ Z.quot (2 ^ 62 * 4) 4 = 2 ^ 62.
Proof. repeat split. Qed.
Example muldiv_ex : muldiv_i32 (-2000000000) 3 4 = Ret (-1500000000) /\ is_i32 (-1500000000).
Proof. split; [reflexivity|unfold is_i32; lia]. Qed.

(** C16.  Bit i of the result is bit (i - n) mod 32 of the argument. *)
Theorem rol_bits : forall v n, is_u32 v -> 0 < n < 32 ->
  exists w, rol v n = Ret w /\ is_u32 w /\
    (forall i, 0 <= i < 32 -> Z.testbit w i = Z.testbit v ((i - n) mod 32)).
Proof.
  intros v n Hv Hn. unfold_ranges. unfold rol. destruct ((0 <? n) && (n <? 32)) eqn:E; [|lia].
  eexists. split; [reflexivity|].
  assert (A : Z.shiftr v (32 - n) < 2 ^ n /\ 0 <= Z.shiftr v (32 - n)).
  { rewrite Z.shiftr_div_pow2 by lia. split; [|apply Z.div_pos; [lia|apply Z.pow_pos_nonneg; lia]].
    apply Z.div_lt_upper_bound; [apply Z.pow_pos_nonneg; lia|]. rewrite <- Z.pow_add_r by lia. replace (32 - n + n) with 32 by lia. change (2 ^ 32) with 4294967296. lia. }
  assert (B : 0 <= Z.lor (u32 (Z.shiftl v n)) (Z.shiftr v (32 - n))).
  { apply Z.lor_nonneg. split; [apply u32_range|apply A]. }
  assert (Bits : forall i, 0 <= i < 32 -> Z.testbit (Z.lor (u32 (Z.shiftl v n)) (Z.shiftr v (32 - n))) i = Z.testbit v ((i - n) mod 32)).
  { intros i Hi. rewrite Z.lor_spec, Z.shiftr_spec by lia. unfold u32. change M32 with (2 ^ 32). rewrite Z.mod_pow2_bits_low by lia. rewrite Z.shiftl_spec by lia.
    destruct (Z.lt_ge_cases i n) as [L|L].
    - rewrite (Z.testbit_neg_r v (i - n)) by lia. cbn [orb]. f_equal. lia.
    - replace ((i - n) mod 32) with (i - n) by lia.
      assert (F : Z.testbit v (i + (32 - n)) = false).
      { rewrite <- (Z.mod_small v (2 ^ 32)) by (change (2 ^ 32) with 4294967296; lia). apply Z.mod_pow2_bits_high. lia. }
      rewrite F. apply orb_false_r. }
  split; [split; [exact B|]|exact Bits].
  destruct (Z.lt_ge_cases (Z.lor (u32 (Z.shiftl v n)) (Z.shiftr v (32 - n))) 4294967296) as [L|L]; auto. exfalso.
  assert (M : Z.lor (u32 (Z.shiftl v n)) (Z.shiftr v (32 - n)) mod 2 ^ 32 = Z.lor (u32 (Z.shiftl v n)) (Z.shiftr v (32 - n))).
  { rewrite <- Z.land_ones by lia. rewrite Z.land_lor_distr_l, !Z.land_ones by lia. f_equal.
    - unfold u32. change M32 with (2 ^ 32). apply Z.mod_mod. discriminate.
    - apply Z.mod_small. split; [apply A|]. apply Z.lt_le_trans with (2 ^ n); [apply A|]. apply Z.pow_le_mono_r; lia. }
  change (2 ^ 32) with 4294967296 in M. lia.
Qed.
(** C16.  Rotations are inverted by the complementary rotation. *)
Theorem rol_inverse : forall v n w, is_u32 v -> 0 < n < 32 -> rol v n = Ret w -> rol w (32 - n) = Ret v.
Proof.
  intros v n w Hv Hn E. destruct (rol_bits v n Hv Hn) as (w' & E' & Hw & B). rewrite E in E'. inversion E'; subst w'.
  destruct (rol_bits w (32 - n) Hw ltac:(lia)) as (x & Ex & Hx & Bx). rewrite Ex. f_equal.
  apply Z.bits_inj'. intros i Hi. unfold is_u32 in *. destruct (Z.lt_ge_cases i 32) as [L|L].
  - rewrite Bx, B by lia. f_equal. lia.
  - rewrite <- (Z.mod_small x (2 ^ 32)), <- (Z.mod_small v (2 ^ 32)) by lia. rewrite !Z.mod_pow2_bits_high by lia. reflexivity.
Qed.
Example rol_ex : rol 2147483649 4 = Ret 24.
Proof. reflexivity. Qed.

(** C17 *)
Theorem interval_contains_size : forall i, is_u64 (istart i) -> is_u64 (iend i) ->
  (forall x, iv_contains i x = true <-> exists k, 0 <= k < iv_size i /\ x = istart i + k) /\
  (iv_empty i = true <-> iv_size i = 0) /\ (iv_empty i = true <-> forall x, iv_contains i x = false) /\ is_u64 (iv_size i).
Proof.
  intros [s e] Hs He. cbn [istart iend] in *. unfold_ranges. unfold iv_contains, iv_size, iv_empty. cbn [istart iend].
  assert (S : (if s <=? e then u64 (e - s) else 0) = Z.max 0 (e - s)).
  { destruct (Z.leb_spec s e); [rewrite u64_small by lia|]; lia. }
  rewrite S. split; [|split; [|split]].
  - intros x. split.
    + intros H. exists (x - s). lia.
    + intros (k & Hk & ->). lia.
  - lia.
  - split; [intros; lia|]. intros H. specialize (H s). lia.
  - lia.
Qed.
Theorem interval_shift : forall i x, is_u64 (istart i) -> is_u64 (iend i) -> is_u64 x ->
  iv_sub (iv_add i x) x = i /\ iv_add (iv_sub i x) x = i /\ iv_decr (iv_incr i) = i /\ iv_incr (iv_decr i) = i /\
  (forall o, is_u64 (istart o) -> is_u64 (iend o) -> iv_minus (iv_plus i o) o = i) /\
  (istart i + x < 2 ^ 64 -> iend i + x < 2 ^ 64 ->
     iv_size (iv_add i x) = iv_size i /\ iv_bool (iv_add i x) = iv_bool i /\
     forall y, iv_contains (iv_add i x) (y + x) = iv_contains i y).
Proof.
  intros [s e] x Hs He Hx. unfold_ranges. unfold iv_sub, iv_add, iv_incr, iv_decr, iv_minus, iv_plus, iv_size, iv_bool, iv_contains.
  cbn [istart iend] in *. unfold u64.
  assert (A : forall a b, 0 <= a < M64 -> ((a + b) mod M64 - b) mod M64 = a).
  { intros a b Ha. rewrite Zminus_mod_idemp_l. replace (a + b - b) with a by lia. apply Z.mod_small. lia. }
  assert (B : forall a b, 0 <= a < M64 -> ((a - b) mod M64 + b) mod M64 = a).
  { intros a b Ha. rewrite Zplus_mod_idemp_l. replace (a - b + b) with a by lia. apply Z.mod_small. lia. }
  split; [rewrite !A by lia; auto|]. split; [rewrite !B by lia; auto|]. split; [rewrite !A by lia; auto|]. split; [rewrite !B by lia; auto|].
  split; [intros o Ho1 Ho2; rewrite !A by lia; auto|]. intros H1 H2. rewrite (Z.mod_small (s + x)), (Z.mod_small (e + x)) by lia.
  replace (s + x <=? e + x) with (s <=? e) by lia. replace (e + x - (s + x)) with (e - s) by lia. split; [reflexivity|]. split; [reflexivity|].
  intros y. lia.
Qed.
Theorem interval_invalid : forall i x,
  iv_bool (iv_invalidate i) = false /\ iv_empty (iv_invalidate i) = true /\ iv_size (iv_invalidate i) = 0 /\
  iv_contains (iv_invalidate i) x = false /\ iv_invalidate i = iv_default /\
  iv_bool (iv_point x) = true /\ iv_empty (iv_point x) = true.
Proof.
  intros i x. unfold iv_contains, iv_point, iv_bool, iv_empty. cbn. repeat split; lia.
Qed.
Example interval_ex : iv_contains (iv_add (mkiv 3 7) (2 ^ 64 - 1)) 2 = true /\ iv_size (iv_add (mkiv 3 7) (2 ^ 64 - 1)) = 4.
Proof. split; reflexivity. Qed.

(** C20.  Little-endian bytes of a number. *)
Fixpoint le_bytes (n : nat) (v : Z) : list Z := match n with O => [] | S m => v mod 256 :: le_bytes m (v / 256) end.

Lemma land_field : forall v j, 0 <= j -> Z.land v (255 * 2 ^ j) = (v / 2 ^ j) mod 256 * 2 ^ j.
Proof.
  intros v j Hj. rewrite <- (Z.shiftl_mul_pow2 255), <- (Z.shiftl_mul_pow2 (v / 2 ^ j mod 256)), <- Z.shiftr_div_pow2 by lia.
  change 256 with (2 ^ 8). rewrite <- Z.land_ones by lia. change (Z.ones 8) with 255.
  apply Z.bits_inj'. intros i Hi. rewrite Z.land_spec, !Z.shiftl_spec, Z.land_spec by lia.
  destruct (Z.lt_ge_cases i j) as [L|L].
  - rewrite !(Z.testbit_neg_r _ (i - j)) by lia. rewrite !andb_false_r. reflexivity.
  - rewrite Z.shiftr_spec by lia. replace (i - j + j) with i by lia. reflexivity.
Qed.
Lemma field_shl : forall v j k m, 0 <= j -> 0 <= k -> j + k + 8 <= m ->
  Z.shiftl (Z.land v (255 * 2 ^ j)) k mod 2 ^ m = (v / 2 ^ j) mod 256 * 2 ^ (j + k).
Proof.
  intros v j k m Hj Hk Hm. rewrite land_field, Z.shiftl_mul_pow2, <- Z.mul_assoc, <- Z.pow_add_r by lia.
  apply Z.mod_small. assert (0 < 2 ^ (j + k)) by (apply Z.pow_pos_nonneg; lia). split; [lia|].
  apply Z.lt_le_trans with (256 * 2 ^ (j + k)); [apply Z.mul_lt_mono_pos_r; lia|]. change 256 with (2 ^ 8). rewrite <- Z.pow_add_r by lia. apply Z.pow_le_mono_r; lia.
Qed.
Lemma field_shr : forall v j k, 0 <= k <= j -> Z.shiftr (Z.land v (255 * 2 ^ j)) k = (v / 2 ^ j) mod 256 * 2 ^ (j - k).
Proof.
  intros v j k Hk. rewrite land_field, Z.shiftr_div_pow2 by lia. replace j with (j - k + k) at 2 by lia.
  rewrite Z.pow_add_r, Z.mul_assoc by lia. apply Z.div_mul. apply Z.pow_nonzero; lia.
Qed.

Lemma bs16_arith : forall v, 0 <= v < M16 -> byteswap16 v = v mod 256 * 256 + v / 256.
Proof.
  intros v Hv. unfold byteswap16, u16. change M16 with (2 ^ 16). change 255 with (255 * 2 ^ 0).
  rewrite field_shl by lia. change (2 ^ (0 + 8)) with (2 ^ 8). rewrite Z.shiftr_div_pow2 by lia. rewrite lor_add by (change (2 ^ 8) with 256; lia).
  change (2 ^ 0) with 1. rewrite Z.div_1_r. reflexivity.
Qed.
Lemma bs32_arith : forall v, 0 <= v < M32 ->
  byteswap32 v = v mod 256 * 16777216 + v / 256 mod 256 * 65536 + v / 65536 mod 256 * 256 + v / 16777216.
Proof.
  intros v Hv. unfold byteswap32, u32. change M32 with (2 ^ 32). change 255 with (255 * 2 ^ 0). change 65280 with (255 * 2 ^ 8). change 16711680 with (255 * 2 ^ 16).
  rewrite !field_shl, field_shr by lia. rewrite Z.shiftr_div_pow2 by lia.
  change (2 ^ (0 + 24)) with (2 ^ 24). change (2 ^ (8 + 8)) with (2 ^ 16). change (2 ^ (16 - 8)) with (2 ^ 8).
  change (2 ^ 0) with 1. rewrite Z.div_1_r.
  rewrite lor_add by (change (2 ^ 24) with 16777216; change (2 ^ 8) with 256; change (2 ^ 16) with 65536; lia).
  replace (v mod 256 * 2 ^ 24 + v / 2 ^ 8 mod 256 * 2 ^ 16) with ((v mod 256 * 256 + v / 256 mod 256) * 2 ^ 16) by (change (2 ^ 24) with 16777216; change (2 ^ 8) with 256; change (2 ^ 16) with 65536; lia).
  rewrite lor_add by (change (2 ^ 24) with 16777216; change (2 ^ 8) with 256; change (2 ^ 16) with 65536; lia).
  replace ((v mod 256 * 256 + v / 256 mod 256) * 2 ^ 16 + v / 2 ^ 16 mod 256 * 2 ^ 8) with ((v mod 256 * 65536 + v / 256 mod 256 * 256 + v / 65536 mod 256) * 2 ^ 8) by (change (2 ^ 24) with 16777216; change (2 ^ 8) with 256; change (2 ^ 16) with 65536; lia).
  rewrite lor_add by (change (2 ^ 24) with 16777216; change (2 ^ 8) with 256; change (2 ^ 16) with 65536; lia).
  change (2 ^ 24) with 16777216; change (2 ^ 8) with 256; change (2 ^ 16) with 65536. lia.
Qed.
Lemma bs64_arith : forall v, 0 <= v < M64 ->
  byteswap64 v = v mod 256 * 2 ^ 56 + v / 2 ^ 8 mod 256 * 2 ^ 48 + v / 2 ^ 16 mod 256 * 2 ^ 40 + v / 2 ^ 24 mod 256 * 2 ^ 32 +
    v / 2 ^ 32 mod 256 * 2 ^ 24 + v / 2 ^ 40 mod 256 * 2 ^ 16 + v / 2 ^ 48 mod 256 * 2 ^ 8 + v / 2 ^ 56.
Proof.
  intros v Hv. unfold byteswap64, u64. change M64 with (2 ^ 64).
  rewrite !field_shl, !field_shr by lia. rewrite Z.shiftr_div_pow2 by lia.
  change (0 + 56) with 56. change (8 + 40) with 48. change (16 + 24) with 40. change (24 + 8) with 32.
  change (32 - 8) with 24. change (40 - 24) with 16. change (48 - 40) with 8. change (2 ^ 0) with 1. rewrite Z.div_1_r.
  assert (H7 : 0 <= v / 2 ^ 56 < 256) by (change (2 ^ 56) with 72057594037927936; lia).
  generalize dependent (v / 2 ^ 56). intros b7 H7.
  assert (Hm : forall x, 0 <= x mod 256 < 256) by (intros; lia).
  generalize (Hm v). generalize (Hm (v / 2 ^ 8)). generalize (Hm (v / 2 ^ 16)). generalize (Hm (v / 2 ^ 24)).
  generalize (Hm (v / 2 ^ 32)). generalize (Hm (v / 2 ^ 40)). generalize (Hm (v / 2 ^ 48)). clear Hm Hv.
  generalize (v mod 256) (v / 2 ^ 8 mod 256) (v / 2 ^ 16 mod 256) (v / 2 ^ 24 mod 256) (v / 2 ^ 32 mod 256) (v / 2 ^ 40 mod 256) (v / 2 ^ 48 mod 256).
  intros b0 b1 b2 b3 b4 b5 b6 H6 H5 H4 H3 H2 H1 H0.
  rewrite (lor_add b0 (b1 * 2 ^ 48) 56) by lia.
  replace (b0 * 2 ^ 56 + b1 * 2 ^ 48) with ((b0 * 256 + b1) * 2 ^ 48) by lia.
  rewrite (lor_add _ (b2 * 2 ^ 40) 48) by lia.
  replace ((b0 * 256 + b1) * 2 ^ 48 + b2 * 2 ^ 40) with (((b0 * 256 + b1) * 256 + b2) * 2 ^ 40) by lia.
  rewrite (lor_add _ (b3 * 2 ^ 32) 40) by lia.
  replace (((b0 * 256 + b1) * 256 + b2) * 2 ^ 40 + b3 * 2 ^ 32) with ((((b0 * 256 + b1) * 256 + b2) * 256 + b3) * 2 ^ 32) by lia.
  rewrite (lor_add _ (b4 * 2 ^ 24) 32) by lia.
  replace ((((b0 * 256 + b1) * 256 + b2) * 256 + b3) * 2 ^ 32 + b4 * 2 ^ 24) with (((((b0 * 256 + b1) * 256 + b2) * 256 + b3) * 256 + b4) * 2 ^ 24) by lia.
  rewrite (lor_add _ (b5 * 2 ^ 16) 24) by lia.
  replace (((((b0 * 256 + b1) * 256 + b2) * 256 + b3) * 256 + b4) * 2 ^ 24 + b5 * 2 ^ 16) with ((((((b0 * 256 + b1) * 256 + b2) * 256 + b3) * 256 + b4) * 256 + b5) * 2 ^ 16) by lia.
  rewrite (lor_add _ (b6 * 2 ^ 8) 16) by lia.
  replace ((((((b0 * 256 + b1) * 256 + b2) * 256 + b3) * 256 + b4) * 256 + b5) * 2 ^ 16 + b6 * 2 ^ 8) with (((((((b0 * 256 + b1) * 256 + b2) * 256 + b3) * 256 + b4) * 256 + b5) * 256 + b6) * 2 ^ 8) by lia.
  rewrite (lor_add _ b7 8) by lia. lia.
Qed.

Lemma le_bytes_of : forall n l, length l = n -> Forall (fun x => 0 <= x < 256) l ->
  le_bytes n (fold_right (fun b a => b + 256 * a) 0 l) = l.
Proof.
  induction n as [|n IH]; intros [|x l] L F; try discriminate L; [reflexivity|]. inversion F; subst. cbn [fold_right le_bytes].
  f_equal; [lia|]. replace ((x + 256 * fold_right (fun b a => b + 256 * a) 0 l) / 256) with (fold_right (fun b a => b + 256 * a) 0 l) by lia.
  apply IH; auto.
Qed.
Lemma dd : forall v a, 0 <= a -> v / 2 ^ a / 256 = v / 2 ^ (a + 8).
Proof. intros. change 256 with (2 ^ 8). rewrite Z.div_div, <- Z.pow_add_r by (try apply Z.pow_nonzero; try apply Z.pow_pos_nonneg; lia). reflexivity. Qed.
Ltac ceqp := change (8 + 8 + 8 + 8 + 8 + 8 + 8) with 56; change (8 + 8 + 8 + 8 + 8 + 8) with 48; change (8 + 8 + 8 + 8 + 8) with 40;
  change (8 + 8 + 8 + 8) with 32; change (8 + 8 + 8) with 24; change (8 + 8) with 16.

Theorem byteswap_reverses : forall v,
  (0 <= v < 2 ^ 16 -> le_bytes 2 (byteswap16 v) = rev (le_bytes 2 v)) /\
  (0 <= v < 2 ^ 32 -> le_bytes 4 (byteswap32 v) = rev (le_bytes 4 v)) /\
  (0 <= v < 2 ^ 64 -> le_bytes 8 (byteswap64 v) = rev (le_bytes 8 v)).
Proof.
  intros v. change (2 ^ 16) with M16. change (2 ^ 32) with M32. change (2 ^ 64) with M64. split; [|split]; intros Hv.
  - rewrite bs16_arith by lia. cbn. repeat (f_equal; try lia).
  - rewrite bs32_arith by lia.
    replace (v mod 256 * 16777216 + v / 256 mod 256 * 65536 + v / 65536 mod 256 * 256 + v / 16777216) with
      (fold_right (fun b a => b + 256 * a) 0 [v / 16777216; v / 65536 mod 256; v / 256 mod 256; v mod 256]) by (cbn [fold_right]; lia).
    rewrite le_bytes_of; [|reflexivity|repeat constructor; lia]. cbn [le_bytes rev app]. repeat (f_equal; try lia).
  - rewrite bs64_arith by lia.
    replace (v mod 256 * 2 ^ 56 + v / 2 ^ 8 mod 256 * 2 ^ 48 + v / 2 ^ 16 mod 256 * 2 ^ 40 + v / 2 ^ 24 mod 256 * 2 ^ 32 +
      v / 2 ^ 32 mod 256 * 2 ^ 24 + v / 2 ^ 40 mod 256 * 2 ^ 16 + v / 2 ^ 48 mod 256 * 2 ^ 8 + v / 2 ^ 56) with
      (fold_right (fun b a => b + 256 * a) 0 [v / 2 ^ 56; v / 2 ^ 48 mod 256; v / 2 ^ 40 mod 256; v / 2 ^ 32 mod 256;
         v / 2 ^ 24 mod 256; v / 2 ^ 16 mod 256; v / 2 ^ 8 mod 256; v mod 256]).
    2: { cbn [fold_right]. generalize (v / 2 ^ 56) (v mod 256) (v / 2 ^ 8 mod 256) (v / 2 ^ 16 mod 256) (v / 2 ^ 24 mod 256) (v / 2 ^ 32 mod 256) (v / 2 ^ 40 mod 256) (v / 2 ^ 48 mod 256). intros. lia. }
    rewrite le_bytes_of; [|reflexivity|].
    + cbn [le_bytes rev app]. change (v / 256) with (v / 2 ^ 8). rewrite !dd by lia. ceqp.
      f_equal. symmetry. apply Z.mod_small. change (2 ^ 56) with 72057594037927936. lia.
    + repeat constructor; try (clear; lia). all: change (2 ^ 56) with 72057594037927936; lia.
Qed.

(** C20.  Swapping twice is the identity, on unsigned and signed values. *)
Lemma le_bytes_inj : forall n a b, 0 <= a < 256 ^ Z.of_nat n -> 0 <= b < 256 ^ Z.of_nat n -> le_bytes n a = le_bytes n b -> a = b.
Proof.
  induction n as [|n IH]; intros a b Ha Hb E.
  - change (256 ^ Z.of_nat 0) with 1 in *. lia.
  - cbn [le_bytes] in E. injection E as E1 E2. rewrite Nat2Z.inj_succ, Z.pow_succ_r in Ha, Hb by lia.
    assert (a / 256 = b / 256).
    { apply IH; auto; (split; [apply Z.div_pos; lia|apply Z.div_lt_upper_bound; lia]). }
    rewrite (Z.div_mod a 256), (Z.div_mod b 256) by lia. congruence.
Qed.
Lemma byteswap_range : forall v,
  (0 <= v < M16 -> 0 <= byteswap16 v < M16) /\ (0 <= v < M32 -> 0 <= byteswap32 v < M32) /\ (0 <= v < M64 -> 0 <= byteswap64 v < M64).
Proof.
  intros v. split; [|split]; intros Hv.
  - rewrite bs16_arith by lia. lia.
  - rewrite bs32_arith by lia. lia.
  - rewrite bs64_arith by lia.
    assert (H7 : 0 <= v / 2 ^ 56 < 256) by (change (2 ^ 56) with 72057594037927936; lia).
    assert (Hm : forall x, 0 <= x mod 256 < 256) by (intros; lia).
    generalize dependent (v / 2 ^ 56). intros b7 H7.
    generalize (Hm v). generalize (Hm (v / 2 ^ 8)). generalize (Hm (v / 2 ^ 16)). generalize (Hm (v / 2 ^ 24)).
    generalize (Hm (v / 2 ^ 32)). generalize (Hm (v / 2 ^ 40)). generalize (Hm (v / 2 ^ 48)). clear Hm Hv.
    generalize (v mod 256) (v / 2 ^ 8 mod 256) (v / 2 ^ 16 mod 256) (v / 2 ^ 24 mod 256) (v / 2 ^ 32 mod 256) (v / 2 ^ 40 mod 256) (v / 2 ^ 48 mod 256).
    intros b0 b1 b2 b3 b4 b5 b6 H6 H5 H4 H3 H2 H1 H0. lia.
Qed.
Theorem byteswap_involution : forall v,
  (0 <= v < 2 ^ 16 -> byteswap16 (byteswap16 v) = v) /\
  (0 <= v < 2 ^ 32 -> byteswap32 (byteswap32 v) = v) /\
  (0 <= v < 2 ^ 64 -> byteswap64 (byteswap64 v) = v).
Proof.
  intros v. change (2 ^ 16) with M16. change (2 ^ 32) with M32. change (2 ^ 64) with M64. split; [|split]; intros Hv.
  - pose proof (proj1 (byteswap_range v) Hv) as R. apply (le_bytes_inj 2); [exact (proj1 (byteswap_range _) R)|exact Hv|].
    rewrite (proj1 (byteswap_reverses _)) by exact R. rewrite (proj1 (byteswap_reverses _)) by exact Hv. apply rev_involutive.
  - pose proof (proj1 (proj2 (byteswap_range v)) Hv) as R. apply (le_bytes_inj 4); [exact (proj1 (proj2 (byteswap_range _)) R)|exact Hv|].
    rewrite (proj1 (proj2 (byteswap_reverses _))) by exact R. rewrite (proj1 (proj2 (byteswap_reverses _))) by exact Hv. apply rev_involutive.
  - pose proof (proj2 (proj2 (byteswap_range v)) Hv) as R. apply (le_bytes_inj 8); [exact (proj2 (proj2 (byteswap_range _)) R)|exact Hv|].
    rewrite (proj2 (proj2 (byteswap_reverses _))) by exact R. rewrite (proj2 (proj2 (byteswap_reverses _))) by exact Hv. apply rev_involutive.
Qed.
Theorem byteswap_signed_involution : forall v,
  (- 2 ^ 15 <= v < 2 ^ 15 -> byteswap_i16 (byteswap_i16 v) = v) /\
  (- 2 ^ 31 <= v < 2 ^ 31 -> byteswap_i32 (byteswap_i32 v) = v) /\
  (- 2 ^ 63 <= v < 2 ^ 63 -> byteswap_i64 (byteswap_i64 v) = v).
Proof.
  intros v. unfold byteswap_i16, byteswap_i32, byteswap_i64.
  assert (U16 : forall x, 0 <= x < M16 -> u16 (i16 x) = x) by (intros; unfold u16, i16; lia).
  assert (U32 : forall x, 0 <= x < M32 -> u32 (i32 x) = x) by (intros; unfold u32, i32; lia).
  assert (U64 : forall x, 0 <= x < M64 -> u64 (i64 x) = x) by (intros; unfold u64, i64; lia).
  split; [|split]; intros Hv.
  - rewrite U16 by (apply byteswap_range; apply u16_range). rewrite (proj1 (byteswap_involution _)) by (apply u16_range).
    change (2 ^ 15) with 32768 in Hv. unfold u16, i16. lia.
  - rewrite U32 by (apply byteswap_range; apply u32_range). rewrite (proj1 (proj2 (byteswap_involution _))) by (apply u32_range).
    change (2 ^ 31) with 2147483648 in Hv. unfold u32, i32. lia.
  - rewrite U64 by (apply byteswap_range; apply u64_range). rewrite (proj2 (proj2 (byteswap_involution _))) by (apply u64_range).
    change (2 ^ 63) with 9223372036854775808 in Hv. unfold u64, i64. lia.
Qed.
Example byteswap_ex : byteswap32 305419896 = 2018915346 /\ byteswap_i16 (-2) = -257.
Proof. split; reflexivity. Qed.

Print Assumptions mul_checked.
Print Assumptions add_checked.
Print Assumptions muldiv32_exact.
Print Assumptions muldiv64_partial.
Print Assumptions muldiv64_refuted.
Print Assumptions rol_bits.
Print Assumptions rol_inverse.
Print Assumptions interval_contains_size.
Print Assumptions interval_shift.
Print Assumptions interval_invalid.
Print Assumptions byteswap_reverses.
Print Assumptions byteswap_involution.
Print Assumptions byteswap_signed_involution.
