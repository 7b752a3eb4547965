(** Final theorems about include/stdex/hash.hpp: properties C25-C29. *)
From Verif Require Import Base Bits HashModel HashSpec HashProofs HashRounds HashSha1.
From Coq Require Import ZifyBool ZifyNat.
Ltac Zify.zify_post_hook ::= Z.div_mod_to_equations.

Definition bytes (m : list Z) : Prop := Forall is_byte m.
(** Chunks as accepted by one hash() call without losing length bits: below 4 GiB. *)
Definition small_chunks (chunks : list (list Z)) : Prop := Forall (fun d => Z.of_nat (length d) < 2 ^ 32) chunks.

(* ---- crc32 ---- *)
(** C26: the table-driven code computes the bitwise CRC-32. *)
Theorem crc32_correct : forall chunks, bytes (concat chunks) ->
  crc32_finalize (fold_left crc32_hash chunks crc32_clear) = crc32_spec (concat chunks).
Proof.
  intros chunks F. unfold crc32_finalize, crc32_spec.
  assert (E : forall chunks v, bytes (concat chunks) -> fold_left crc32_hash chunks v = fold_left crc_byte (concat chunks) v).
  { clear. induction chunks as [|d chunks IH]; intros v F; [reflexivity|]. cbn [concat fold_left] in *. apply Forall_app in F. destruct F as [F1 F2].
    rewrite fold_left_app. rewrite IH by exact F2. f_equal. unfold crc32_hash. clear - F1. revert v.
    induction d as [|b d IHd]; intros v; [reflexivity|]. inversion F1; subst. cbn [fold_left]. rewrite crc_step_ok by auto. apply IHd; auto. }
  rewrite E by exact F.
  assert (W : forall m v, bytes m -> is_word v -> is_word (fold_left crc_byte m v)).
  { clear. induction m as [|b m IH]; intros v F Hv; [exact Hv|]. inversion F as [|? ? Fb Fm]; subst. cbn [fold_left]. apply IH; [exact Fm|].
    unfold crc_byte. assert (Hb : is_word b) by (unfold is_word, is_byte in *; change (2 ^ 32) with M32; lia).
    assert (B : forall x, is_word x -> is_word (crc_bit x)).
    { intros x Hx. unfold crc_bit. assert (is_word (x / 2)) by (unfold is_word in *; change (2 ^ 32) with M32 in *; lia).
      destruct (Z.odd x); [apply lxor_word; auto|auto]. unfold is_word. change (2 ^ 32) with M32. lia. }
    generalize (Z.lxor v b) (lxor_word v b Hv Hb). intros x Hx. generalize 8%nat. intros n. induction n as [|n IHn]; [exact Hx|].
    change (is_word (crc_bit (Nat.iter n crc_bit x))). apply B. exact IHn. }
  assert (Wv : is_word (fold_left crc_byte (concat chunks) crc32_clear)).
  { apply W; [exact F|]. unfold is_word, crc32_clear. change (2 ^ 32) with M32. lia. }
  change crc32_clear with 0xffffffff in *. set (v := fold_left _ _ _) in *. clearbody v.
  change (u32 (Z.lnot v)) with (not32 v). rewrite not32_bnot by exact Wv. apply word_ext.
  - apply bnot_word; exact Wv.
  - apply lxor_word; [exact Wv|]. unfold is_word. change (2 ^ 32) with M32. lia.
  - intros i Hi. rewrite bnot_bits, Z.lxor_spec by auto. change 0xffffffff with (Z.ones 32). rewrite Z.ones_spec_low by lia.
    destruct (Z.testbit v i); reflexivity.
Qed.
(** Continuing from a known CRC: crc32_hash(crc of m1) fed m2 gives the CRC of m1 m2. *)
Theorem crc32_resume : forall m1 m2, bytes m1 -> bytes m2 ->
  crc32_finalize (crc32_hash (crc32_new (crc32_spec m1)) m2) = crc32_spec (m1 ++ m2).
Proof.
  intros m1 m2 F1 F2.
  assert (F : bytes (concat [m1; m2])) by (cbn [concat]; rewrite app_nil_r; apply Forall_app; auto).
  pose proof (crc32_correct [m1] ltac:(cbn [concat]; rewrite app_nil_r; exact F1)) as E1.
  pose proof (crc32_correct [m1; m2] F) as E2. cbn [concat fold_left] in E1, E2. rewrite app_nil_r in E1, E2. rewrite <- E1, <- E2.
  f_equal. f_equal. unfold crc32_new, crc32_finalize.
  assert (W : forall m v, 0 <= v < M32 -> bytes m -> 0 <= crc32_hash v m < M32).
  { clear. induction m as [|b m IH]; intros v Hv F; [exact Hv|]. inversion F as [|? ? Fb Fm]; subst. cbn [crc32_hash fold_left].
    apply IH; [|exact Fm]. unfold crc32_step. change M32 with (2 ^ 32). apply lxor_word.
    - assert (A : forall i, is_word (nth i crc32_table 0)).
      { intros i. destruct (Nat.lt_ge_cases i (length crc32_table)) as [C|C].
        - assert (T : forallb (fun x => (0 <=? x) && (x <? 2 ^ 32)) crc32_table = true) by (vm_compute; reflexivity).
          rewrite forallb_forall in T. specialize (T (nth i crc32_table 0) (nth_In _ _ C)). unfold is_word. lia.
        - rewrite nth_overflow by exact C. unfold is_word. lia. }
      apply A.
    - unfold is_word. rewrite Z.shiftr_div_pow2 by lia. change (2 ^ 8) with 256. change (2 ^ 32) with M32. lia. }
  specialize (W m1 crc32_clear ltac:(unfold crc32_clear; lia) F1). set (v := crc32_hash crc32_clear m1) in *. clearbody v.
  unfold u32, Z.lnot. lia.
Qed.
Example crc32_ex : bytes [49;50;51;52;53;54;55;56;57] /\ crc32_spec [49;50;51;52;53;54;55;56;57] = 0xcbf43926.
Proof. split; [repeat constructor; unfold is_byte; lia|vm_compute; reflexivity]. Qed.

(* ---- common to md5 and sha1 ---- *)
Lemma byte_at_low : forall x j, 0 <= j < 4 -> byte_at (x mod 2 ^ 32) j = byte_at x j.
Proof.
  intros x j Hj. unfold byte_at. rewrite <- !Z.shiftr_div_pow2 by lia. change 256 with (2 ^ 8). apply Z.bits_inj'. intros i Hi.
  destruct (Z.lt_ge_cases i 8) as [C|C].
  - rewrite !Z.mod_pow2_bits_low by lia. rewrite !Z.shiftr_spec by lia. apply Z.mod_pow2_bits_low. lia.
  - rewrite !Z.mod_pow2_bits_high by lia. reflexivity.
Qed.
Lemma byte_at_high : forall x j, 0 <= j < 4 -> byte_at (x / 2 ^ 32 mod 2 ^ 32) j = byte_at x (4 + j).
Proof.
  intros x j Hj. rewrite byte_at_low by lia. unfold byte_at. f_equal. rewrite Z.div_div by (try apply Z.pow_pos_nonneg; lia). f_equal.
  rewrite <- Z.pow_add_r by lia. f_equal. lia.
Qed.
Lemma le_bytes_le32 : forall w, le_bytes w = le32 w.
Proof.
  intros w. unfold le32, le_bytes, byte_at. cbn [map]. change (2 ^ (8 * 0)) with 1. change (2 ^ (8 * 1)) with 256. change (2 ^ (8 * 2)) with 65536.
  change (2 ^ (8 * 3)) with 16777216. rewrite Z.div_1_r. reflexivity.
Qed.
Lemma len_bytes_le : forall x, le_bytes (x mod 2 ^ 32) ++ le_bytes (x / 2 ^ 32 mod 2 ^ 32) = le64 x.
Proof.
  intros x. rewrite !le_bytes_le32. unfold le32, le64. cbn [map app]. rewrite !byte_at_high, !byte_at_low by lia. reflexivity.
Qed.
Lemma zeros_lt : forall m, (zeros m < 64)%nat.
Proof. intros m. unfold zeros. lia. Qed.
Lemma padded_length : forall f m, (forall x, length (f x) = 8%nat) -> exists n, length (padded f m) = (64 * n)%nat.
Proof.
  intros f m Hf. exists (Nat.div (length (padded f m)) 64). unfold padded. rewrite !app_length, repeat_length, Hf. cbn [length].
  unfold zeros. lia.
Qed.
Lemma padded_bytes : forall f m, bytes m -> (forall x, bytes (f x)) -> bytes (padded f m).
Proof.
  intros f m Hm Hf. unfold padded, bytes. apply Forall_app; split; [exact Hm|]. apply Forall_app; split; [repeat constructor; lia|].
  apply Forall_app; split; [|apply Hf]. apply Forall_forall. intros x Hx. apply repeat_spec in Hx. subst. unfold is_byte. lia.
Qed.
Lemma byte_at_byte : forall x l, bytes (map (byte_at x) l).
Proof. intros x l. apply Forall_forall. intros y Hy. apply in_map_iff in Hy. destruct Hy as (k & <- & _). unfold byte_at, is_byte. apply Z.mod_pos_bound. lia. Qed.

(* ---- MD5 ---- *)
Lemma md5_block_len : forall st q, length q = 64%nat -> length (snd (md5_block st q)) = 64%nat.
Proof. intros st q H. exact H. Qed.
Lemma md5_init_words : wlist md5_init.
Proof. unfold wlist, md5_init. repeat constructor; unfold is_word; change (2 ^ 32) with M32; lia. Qed.

Lemma md5_finalize_ok : forall m s, bytes m -> absorbed (list Z) md5_block md5_init m s -> md5_finalize s = md5_spec m.
Proof.
  intros m s F A. unfold md5_finalize.
  assert (Ef : le_bytes (c0 s) ++ le_bytes (c1 s) = le64 (8 * Z.of_nat (length m))).
  { destruct A as (_ & _ & _ & E0 & E1). rewrite E0, E1. apply len_bytes_le. }
  rewrite Ef. change 0x3f with 63. rewrite (index_of _ _ _ _ _ A).
  set (r := if Nat.ltb (Nat.modulo (length m) 64) 56 then (56 - Nat.modulo (length m) 64)%nat else (120 - Nat.modulo (length m) 64)%nat).
  assert (Er : r = S (zeros m)).
  { unfold r, zeros. pose proof (Nat.mod_upper_bound (length m) 64 ltac:(lia)).
    destruct (Nat.ltb_spec (Nat.modulo (length m) 64) 56); lia. }
  assert (Ep : firstn r md5_padding = [0x80] ++ repeat 0 (zeros m)).
  { rewrite Er. unfold md5_padding. change (firstn (S (zeros m)) (0x80 :: repeat 0 63)) with (0x80 :: firstn (zeros m) (repeat 0 63)). cbn [app]. f_equal.
    pose proof (zeros_lt m). assert (Hs : forall (x : Z) a b, (a <= b)%nat -> firstn a (repeat x b) = repeat x a).
    { clear. intros x a. induction a as [|a IH]; intros b H; [reflexivity|]. destruct b; [lia|]. cbn. rewrite IH by lia. reflexivity. }
    apply Hs. lia. }
  rewrite Ep.
  pose proof (block_hash_absorbed _ md5_block md5_block_len _ _ _ ([0x80] ++ repeat 0 (zeros m)) A) as A1.
  pose proof (zeros_lt m). assert (L1 : Z.of_nat (length ([0x80] ++ repeat 0 (zeros m))) < 2 ^ 32).
  { rewrite app_length, repeat_length. cbn [length]. change (2 ^ 32) with M32. lia. }
  specialize (A1 L1). pose proof (block_hash_absorbed _ md5_block md5_block_len _ _ _ (le64 (8 * Z.of_nat (length m))) A1 ltac:(cbn; lia)) as A2.
  clear A1. destruct A2 as (E & _). rewrite E. rewrite <- !app_assoc. change (m ++ [0x80] ++ repeat 0 (zeros m) ++ le64 (8 * Z.of_nat (length m))) with (padded le64 m).
  unfold md5_spec. destruct (padded_length le64 m ltac:(intros; reflexivity)) as [n Hn].
  destruct (process_ext _ (cmp (list Z) md5_block) md5_compress wlist is_byte) with (n := Nat.div (length (padded le64 m)) 64) (st := md5_init) (m := padded le64 m) as [E2 _].
  - intros st b Hst Lb Hb. apply md5_block_ok; auto.
  - exact md5_init_words.
  - rewrite Hn. rewrite Nat.mul_comm at 1. rewrite (Nat.mul_comm 64 n), Nat.div_mul by lia. lia.
  - apply padded_bytes; [exact F|]. intros; apply byte_at_byte.
  - rewrite E2. change md5_init with [0x67452301; 0xefcdab89; 0x98badcfe; 0x10325476].
    generalize (process md5_compress (Nat.div (length (padded le64 m)) 64) [0x67452301; 0xefcdab89; 0x98badcfe; 0x10325476] (padded le64 m)).
    induction l as [|w l IH]; [reflexivity|]. cbn [flat_map]. rewrite IH, le_bytes_le32. reflexivity.
Qed.

(** C27: for every message, fed in any chunks below 4 GiB, whatever the queue held before. *)
Theorem md5_correct : forall q0 chunks, length q0 = 64%nat -> small_chunks chunks -> bytes (concat chunks) ->
  md5_finalize (block_hash_chunks md5_block (md5_clear q0) chunks) = md5_spec (concat chunks).
Proof.
  intros q0 chunks L S F. apply md5_finalize_ok; [exact F|].
  apply (block_hash_chunks_absorbed _ md5_block md5_block_len chunks md5_init [] (md5_clear q0)); [apply absorbed_init; exact L|exact S].
Qed.

(* ---- SHA-1 ---- *)
Lemma sha1_block_len' : forall st q, length q = 64%nat -> length (snd (sha1_block st q)) = 64%nat.
Proof. intros st q _. apply sha1_block_len. Qed.
Lemma sha1_init_words : wlist sha1_init.
Proof. unfold wlist, sha1_init. repeat constructor; unfold is_word; change (2 ^ 32) with M32; lia. Qed.
Lemma c0_504 : forall i m s, absorbed (list Z) sha1_block i m s -> (Z.land (c0 s) 504 =? 448) = Nat.eqb (Nat.modulo (length m) 64) 56.
Proof.
  intros i m s A. pose proof (index_of _ _ _ _ _ A) as Ei. destruct A as (_ & _ & _ & E & _).
  set (y := Z.of_nat (length m) mod 2 ^ 29).
  assert (Ey : c0 s = y * 2 ^ 3 + 0).
  { rewrite E. unfold y. change (2 ^ 32) with (8 * 2 ^ 29). change (2 ^ 3) with 8. rewrite Z.mul_mod_distr_l by lia. lia. }
  assert (Es : Z.shiftr (c0 s) 3 = y). { rewrite Ey, Z.shiftr_div_pow2 by lia. change (2 ^ 3) with 8. lia. }
  rewrite Es in Ei. rewrite Ey. change 504 with (63 * 2 ^ 3 + 0). rewrite land_split by (change (2 ^ 3) with 8; lia).
  rewrite Z.land_0_l. change (2 ^ 3) with 8.
  assert (0 <= Z.land y 63) by (apply Z.land_nonneg; lia). rewrite <- Ei. lia.
Qed.
Lemma sha1_pad_ok : forall n fuel m s, absorbed (list Z) sha1_block sha1_init m s -> (n <= fuel)%nat ->
  Z.of_nat n = (56 - Z.of_nat (length m)) mod 64 ->
  exists s', sha1_pad fuel s = Some s' /\ absorbed (list Z) sha1_block sha1_init (m ++ repeat 0 n) s'.
Proof.
  induction n as [|n IH]; intros fuel m s A Hf Hn.
  - exists s. split; [|cbn [repeat]; rewrite app_nil_r; exact A].
    assert (E : (Z.land (c0 s) 504 =? 448) = true).
    { rewrite (c0_504 _ _ _ A). apply Nat.eqb_eq. lia. }
    destruct fuel; cbn [sha1_pad]; rewrite E; reflexivity.
  - assert (E : (Z.land (c0 s) 504 =? 448) = false).
    { rewrite (c0_504 _ _ _ A). apply Nat.eqb_neq. lia. }
    destruct fuel as [|fuel]; [lia|]. cbn [sha1_pad]. rewrite E.
    pose proof (block_hash_absorbed _ sha1_block sha1_block_len' _ _ _ [0] A ltac:(cbn; lia)) as A1.
    destruct (IH fuel (m ++ [0]) (block_hash sha1_block s [0]) A1 ltac:(lia)) as (s' & E' & A').
    { rewrite app_length. cbn [length]. lia. }
    exists s'. split; [exact E'|]. rewrite <- app_assoc in A'. exact A'.
Qed.
Lemma be_byte_at : forall w i, be_byte w i = byte_at w (3 - Z.of_nat (Nat.modulo i 4)).
Proof.
  intros w i. unfold be_byte, byte_at. pose proof (Nat.mod_upper_bound i 4 ltac:(lia)).
  change 255 with (2 ^ 8 - 1). rewrite land_ones_mod by lia. rewrite Z.shiftr_div_pow2 by lia. change (2 ^ 8) with 256. f_equal. f_equal. f_equal. lia.
Qed.
Lemma final_be : forall x, map (fun i => be_byte (if Nat.leb 4 i then x mod 2 ^ 32 else x / 2 ^ 32 mod 2 ^ 32) i) (seq 0 8) = be64 x.
Proof.
  intros x. cbn [map seq Nat.leb]. rewrite !be_byte_at.
  change (Nat.modulo 0 4) with 0%nat. change (Nat.modulo 1 4) with 1%nat. change (Nat.modulo 2 4) with 2%nat. change (Nat.modulo 3 4) with 3%nat.
  change (Nat.modulo 4 4) with 0%nat. change (Nat.modulo 5 4) with 1%nat. change (Nat.modulo 6 4) with 2%nat. change (Nat.modulo 7 4) with 3%nat.
  rewrite !byte_at_high, !byte_at_low by lia. reflexivity.
Qed.
Lemma sha1_compress_length : forall st q, length (sha1_compress st q) = 5%nat.
Proof. intros st q. unfold sha1_compress. destruct (fold_left _ _ _) as [[[[a b] c] d] e]. reflexivity. Qed.

Lemma sha1_finalize_ok : forall m s, bytes m -> absorbed (list Z) sha1_block sha1_init m s -> sha1_finalize s = Some (sha1_spec m).
Proof.
  intros m s F A. unfold sha1_finalize.
  assert (Ef : map (fun i => be_byte (if Nat.leb 4 i then c0 s else c1 s) i) (seq 0 8) = be64 (8 * Z.of_nat (length m))).
  { destruct A as (_ & _ & _ & E0 & E1). rewrite E0, E1. apply final_be. }
  rewrite Ef.
  pose proof (block_hash_absorbed _ sha1_block sha1_block_len' _ _ _ [0x80] A ltac:(cbn; lia)) as A1.
  destruct (sha1_pad_ok (zeros m) 64 _ _ A1) as (s2 & E2 & A2).
  { pose proof (zeros_lt m). lia. }
  { rewrite app_length. cbn [length]. unfold zeros. lia. }
  rewrite E2. pose proof (block_hash_absorbed _ sha1_block sha1_block_len' _ _ _ (be64 (8 * Z.of_nat (length m))) A2 ltac:(cbn; lia)) as A3.
  rewrite <- !app_assoc in A3. change (m ++ [0x80] ++ repeat 0 (zeros m) ++ be64 (8 * Z.of_nat (length m))) with (padded be64 m) in A3.
  destruct A3 as (E & _). f_equal. unfold sha1_spec. destruct (padded_length be64 m ltac:(intros; reflexivity)) as [n Hn].
  destruct (process_ext _ (cmp (list Z) sha1_block) sha1_compress (fun st => wlist st /\ length st = 5%nat) is_byte)
    with (n := Nat.div (length (padded be64 m)) 64) (st := sha1_init) (m := padded be64 m) as [E3 [_ L5]].
  - intros st b [Hst _] Lb Hb. destruct (sha1_block_ok st b Hst Lb Hb) as [B1 B2]. split; [exact B1|]. split; [exact B2|apply sha1_compress_length].
  - split; [exact sha1_init_words|reflexivity].
  - rewrite Hn. rewrite (Nat.mul_comm 64 n), Nat.div_mul by lia. lia.
  - apply padded_bytes; [exact F|]. intros; apply byte_at_byte.
  - rewrite E, E3. change sha1_init with [0x67452301; 0xefcdab89; 0x98badcfe; 0x10325476; 0xc3d2e1f0] in *.
    destruct (process sha1_compress (Nat.div (length (padded be64 m)) 64) [0x67452301; 0xefcdab89; 0x98badcfe; 0x10325476; 0xc3d2e1f0] (padded be64 m))
      as [|w0 [|w1 [|w2 [|w3 [|w4 [|? ?]]]]]]; try discriminate L5.
    cbn [map seq flat_map app be32]. rewrite !be_byte_at.
    repeat match goal with |- context[Nat.modulo ?a 4] => let r := eval vm_compute in (Nat.modulo a 4) in change (Nat.modulo a 4) with r end.
    repeat match goal with |- context[Nat.div ?a 4] => let r := eval vm_compute in (Nat.div a 4) in change (Nat.div a 4) with r end.
    reflexivity.
Qed.

(** C28 *)
Theorem sha1_correct : forall q0 chunks, length q0 = 64%nat -> small_chunks chunks -> bytes (concat chunks) ->
  sha1_finalize (block_hash_chunks sha1_block (sha1_clear q0) chunks) = Some (sha1_spec (concat chunks)).
Proof.
  intros q0 chunks L S F. apply sha1_finalize_ok; [exact F|].
  apply (block_hash_chunks_absorbed _ sha1_block sha1_block_len' chunks sha1_init [] (sha1_clear q0)); [apply absorbed_init; exact L|exact S].
Qed.
Example digest_ex : small_chunks [[97]; []; [98; 99]] /\ bytes (concat [[97]; []; [98; 99]]) /\
  sha1_spec [97; 98; 99] = [0xa9;0x99;0x3e;0x36;0x47;0x06;0x81;0x6a;0xba;0x3e;0x25;0x71;0x78;0x50;0xc2;0x6c;0x9c;0xd0;0xd8;0x9d] /\
  md5_spec [97; 98; 99] = [0x90;0x01;0x50;0x98;0x3c;0xd2;0x4f;0xb0;0xd6;0x96;0x3f;0x7d;0x28;0xe1;0x7f;0x72].
Proof.
  split; [repeat constructor; cbn; lia|]. split; [cbn; repeat constructor; unfold is_byte; lia|]. split; vm_compute; reflexivity.
Qed.

(** C25: chunking does not matter. *)
Theorem hash_chunk_independence : forall q0 q1 ch1 ch2, length q0 = 64%nat -> length q1 = 64%nat ->
  small_chunks ch1 -> small_chunks ch2 -> concat ch1 = concat ch2 -> bytes (concat ch1) ->
  crc32_finalize (fold_left crc32_hash ch1 crc32_clear) = crc32_finalize (fold_left crc32_hash ch2 crc32_clear) /\
  md5_finalize (block_hash_chunks md5_block (md5_clear q0) ch1) = md5_finalize (block_hash_chunks md5_block (md5_clear q1) ch2) /\
  sha1_finalize (block_hash_chunks sha1_block (sha1_clear q0) ch1) = sha1_finalize (block_hash_chunks sha1_block (sha1_clear q1) ch2) /\
  sha1_finalize (block_hash_chunks sha1_block (sha1_clear q0) ch1) <> None.
Proof.
  intros q0 q1 ch1 ch2 L0 L1 S1 S2 E F.
  assert (F2 : bytes (concat ch2)) by (rewrite <- E; exact F).
  rewrite !crc32_correct, !md5_correct, !sha1_correct by auto. rewrite E. repeat split; auto. discriminate.
Qed.

(** C29: a chunk of exactly 4 GiB is not counted at all. *)
Theorem block_hash_length_refuted : exists d : list Z, Z.of_nat (length d) = 2 ^ 32 /\
  forall q0, let s := block_hash md5_block (md5_clear q0) d in
  c0 s + 2 ^ 32 * c1 s <> (8 * Z.of_nat (length d)) mod 2 ^ 64.
Proof.
  exists (repeat 0 (Z.to_nat (2 ^ 32))). rewrite repeat_length, Z2Nat.id by lia. split; [reflexivity|]. intros q0 s.
  assert (E : c0 s = 0 /\ c1 s = 0).
  { unfold s, block_hash. rewrite repeat_length, Z2Nat.id by lia. change (u32 (2 ^ 32)) with 0. change (Z.shiftl 0 3) with 0. change (u32 0) with 0.
    cbn [c0 c1 md5_clear]. change (u32 (0 + 0)) with 0. change (0 <? 0) with false. change (Z.shiftr 0 29) with 0. cbv iota. change (u32 (0 + 0)) with 0.
    destruct (Nat.leb _ _); [|split; reflexivity]. destruct (md5_block _ _). destruct (block_loop _ _ _ _ _) as [[? ?] ?]. split; reflexivity. }
  destruct E as [E0 E1]. rewrite E0, E1. vm_compute. discriminate.
Qed.
(** What holds: with chunks below 4 GiB the counter is the bit length modulo 2^64. *)
Theorem block_hash_length_partial : forall q0 chunks, length q0 = 64%nat -> small_chunks chunks ->
  let s := block_hash_chunks md5_block (md5_clear q0) chunks in
  c0 s + 2 ^ 32 * c1 s = (8 * Z.of_nat (length (concat chunks))) mod 2 ^ 64.
Proof.
  intros q0 chunks L S s.
  destruct (block_hash_chunks_absorbed _ md5_block md5_block_len chunks md5_init [] (md5_clear q0)) as (_ & _ & _ & E0 & E1); [apply absorbed_init; exact L|exact S|].
  fold s in E0, E1. cbn [app] in E0, E1. rewrite E0, E1. set (x := 8 * Z.of_nat (length (concat chunks))).
  change (2 ^ 64) with (2 ^ 32 * 2 ^ 32). symmetry. apply Z.rem_mul_r; lia.
Qed.

Print Assumptions crc32_correct.
Print Assumptions crc32_resume.
Print Assumptions md5_correct.
Print Assumptions sha1_correct.
Print Assumptions hash_chunk_independence.
Print Assumptions block_hash_length_refuted.
Print Assumptions block_hash_length_partial.
