(** The compression functions of hash.hpp compute those of the standards. *)
From Verif Require Import Base Bits HashModel HashSpec.
From Coq Require Import ZifyBool ZifyNat.

Global Arguments Z.testbit : simpl never.

(* ---- bit ranges ---- *)
Lemma word_bits : forall x, is_word x <-> 0 <= x /\ forall i, 32 <= i -> Z.testbit x i = false.
Proof.
  intros x. unfold is_word. split.
  - intros H. split; [lia|]. intros i Hi. rewrite <- (Z.mod_small x (2 ^ 32)) by lia. apply Z.mod_pow2_bits_high. lia.
  - intros [H B]. split; [exact H|]. destruct (Z.lt_ge_cases x (2 ^ 32)) as [C|C]; [exact C|].
    assert (32 <= Z.log2 x) by (apply Z.log2_le_pow2; lia). 
    pose proof (Z.bit_log2 x ltac:(change (2 ^ 32) with M32 in C; lia)) as E. rewrite B in E by auto. discriminate.
Qed.
Lemma lor_word : forall x y, is_word x -> is_word y -> is_word (Z.lor x y).
Proof.
  intros x y Hx Hy. rewrite word_bits in *. destruct Hx, Hy. split; [apply Z.lor_nonneg; auto|].
  intros i Hi. rewrite Z.lor_spec, H0, H2 by auto. reflexivity.
Qed.
Lemma lxor_word : forall x y, is_word x -> is_word y -> is_word (Z.lxor x y).
Proof.
  intros x y Hx Hy. rewrite word_bits in *. destruct Hx, Hy. split; [apply Z.lxor_nonneg; tauto|].
  intros i Hi. rewrite Z.lxor_spec, H0, H2 by auto. reflexivity.
Qed.
Lemma land_word : forall x y, is_word x -> 0 <= y -> is_word (Z.land x y).
Proof.
  intros x y Hx Hy. rewrite word_bits in *. destruct Hx. split; [apply Z.land_nonneg; auto|].
  intros i Hi. rewrite Z.land_spec, H0 by auto. reflexivity.
Qed.
Lemma u32_word : forall x, is_word (u32 x).
Proof. intros. unfold is_word. change (2 ^ 32) with M32. apply u32_range. Qed.
Lemma bnot_word : forall x, is_word x -> is_word (bnot x).
Proof. unfold is_word, bnot. lia. Qed.
Lemma not32_bnot : forall x, is_word x -> not32 x = bnot x.
Proof.
  intros x H. unfold not32, bnot, u32, is_word in *. change (2 ^ 32) with M32 in *.
  replace (Z.lnot x) with (M32 - 1 - x + (-1) * M32) by (unfold Z.lnot; lia). rewrite Z.mod_add by lia. apply Z.mod_small. lia.
Qed.
Lemma bnot_bits : forall x i, is_word x -> 0 <= i < 32 -> Z.testbit (bnot x) i = negb (Z.testbit x i).
Proof.
  intros x i H Hi. rewrite <- not32_bnot by auto. unfold not32, u32. change M32 with (2 ^ 32). rewrite Z.mod_pow2_bits_low by lia.
  apply Z.lnot_spec. lia.
Qed.

(* ---- rotation ---- *)
Lemma rol32_rotl : forall x s, is_word x -> 0 < s < 32 -> rol32 x s = rotl x s.
Proof.
  intros x s Hx Hs. unfold rol32, rotl, is_word in *. rewrite Z.shiftl_mul_pow2, Z.shiftr_div_pow2 by lia. unfold u32. change M32 with (2 ^ 32).
  assert (E : (x * 2 ^ s) mod 2 ^ 32 = (x mod 2 ^ (32 - s)) * 2 ^ s).
  { replace (2 ^ 32) with (2 ^ (32 - s) * 2 ^ s) by (rewrite <- Z.pow_add_r by lia; f_equal; lia).
    apply Z.mul_mod_distr_r; apply Z.pow_nonzero; lia. }
  rewrite E. apply lor_add; [lia|]. split; [apply Z.div_pos; [lia|apply Z.pow_pos_nonneg; lia]|].
  apply Z.div_lt_upper_bound; [apply Z.pow_pos_nonneg; lia|]. rewrite <- Z.pow_add_r by lia. replace (32 - s + s) with 32 by lia. lia.
Qed.
Lemma rotl_word : forall x s, is_word x -> 0 < s < 32 -> is_word (rotl x s).
Proof.
  intros x s Hx Hs. rewrite <- rol32_rotl by auto. unfold rol32. apply lor_word; [apply u32_word|].
  rewrite Z.shiftr_div_pow2 by lia. unfold is_word in *. split; [apply Z.div_pos; [lia|apply Z.pow_pos_nonneg; lia]|].
  apply Z.le_lt_trans with x; [|lia]. apply Z.div_le_upper_bound; [apply Z.pow_pos_nonneg; lia|].
  assert (1 <= 2 ^ (32 - s)) by (pose proof (Z.pow_pos_nonneg 2 (32 - s)); lia). nia.
Qed.

(* ---- CRC ---- *)
Lemma half_bits : forall x i, 0 <= i -> Z.testbit (x / 2) i = Z.testbit x (i + 1).
Proof. intros x i Hi. change 2 with (2 ^ 1) at 1. rewrite <- Z.shiftr_div_pow2 by lia. apply Z.shiftr_spec. exact Hi. Qed.
Lemma crc_bit_lxor : forall x y, crc_bit (Z.lxor x y) = Z.lxor (crc_bit x) (crc_bit y).
Proof.
  intros x y. unfold crc_bit. assert (H : Z.lxor x y / 2 = Z.lxor (x / 2) (y / 2)).
  { apply Z.bits_inj'. intros i Hi. rewrite half_bits, !Z.lxor_spec, !half_bits by lia. reflexivity. }
  assert (O : Z.odd (Z.lxor x y) = xorb (Z.odd x) (Z.odd y)) by (rewrite <- !Z.bit0_odd; apply Z.lxor_spec).
  rewrite O, H. destruct (Z.odd x), (Z.odd y); cbn [xorb].
  - rewrite (Z.lxor_comm (y / 2)), Z.lxor_assoc, <- (Z.lxor_assoc 0xEDB88320), Z.lxor_nilpotent, Z.lxor_0_l. reflexivity.
  - rewrite !Z.lxor_assoc. f_equal. apply Z.lxor_comm.
  - rewrite Z.lxor_assoc. reflexivity.
  - reflexivity.
Qed.
Lemma crc_iter_lxor : forall n x y, Nat.iter n crc_bit (Z.lxor x y) = Z.lxor (Nat.iter n crc_bit x) (Nat.iter n crc_bit y).
Proof.
  induction n as [|n IH]; intros; [reflexivity|].
  change (crc_bit (Nat.iter n crc_bit (Z.lxor x y)) = Z.lxor (crc_bit (Nat.iter n crc_bit x)) (crc_bit (Nat.iter n crc_bit y))).
  rewrite IH. apply crc_bit_lxor.
Qed.
Lemma crc_iter_shift : forall n x, Nat.iter n crc_bit (x * 2 ^ Z.of_nat n) = x.
Proof.
  induction n as [|n IH]; intros x; [cbn; lia|].
  assert (S1 : forall (f : Z -> Z) m y, Nat.iter (S m) f y = Nat.iter m f (f y)).
  { intros f m. induction m as [|m IHm]; intros y; [reflexivity|]. change (Nat.iter (S (S m)) f y) with (f (Nat.iter (S m) f y)). rewrite IHm. reflexivity. }
  rewrite S1. replace (x * 2 ^ Z.of_nat (S n)) with (2 * (x * 2 ^ Z.of_nat n)).
  - unfold crc_bit at 2. rewrite Z.odd_mul. cbn [Z.odd andb]. rewrite Z.mul_comm, Z.div_mul by lia. apply IH.
  - rewrite Nat2Z.inj_succ, Z.pow_succ_r by lia. lia.
Qed.
Lemma crc_table_ok : forall k, 0 <= k < 256 -> nth (Z.to_nat k) crc32_table 0 = Nat.iter 8 crc_bit k.
Proof.
  intros k Hk. apply Z.eqb_eq.
  apply (all_below_spec (fun k => nth (Z.to_nat k) crc32_table 0 =? Nat.iter 8 crc_bit k) 256); [vm_compute; reflexivity|exact Hk].
Qed.
Lemma crc_step_ok : forall v b, is_byte b -> crc32_step v b = crc_byte v b.
Proof.
  intros v b Hb. unfold crc32_step, crc_byte. change 0xff with (2 ^ 8 - 1). rewrite land_ones_mod by lia.
  set (x := Z.lxor v b). assert (E : Z.shiftr v 8 = x / 256).
  { change 256 with (2 ^ 8). rewrite <- Z.shiftr_div_pow2 by lia. unfold x. rewrite Z.shiftr_lxor.
    rewrite (Z.shiftr_div_pow2 b) by lia. change (2 ^ 8) with 256. rewrite (Z.div_small b) by exact Hb. rewrite Z.lxor_0_r. reflexivity. }
  rewrite E. change (2 ^ 8) with 256. rewrite crc_table_ok by (apply Z.mod_pos_bound; lia).
  assert (Ex : x = Z.lxor (x mod 256) (x / 256 * 256)).
  { rewrite Z.lxor_comm. change 256 with (2 ^ 8). rewrite Z.lxor_lor by (apply land_disjoint; [lia|apply Z.mod_pos_bound; lia]).
    rewrite lor_add by (try lia; apply Z.mod_pos_bound; lia). rewrite (Z.div_mod x (2 ^ 8)) at 1 by lia. lia. }
  rewrite Ex at 3. rewrite crc_iter_lxor. f_equal. symmetry. change 256 with (2 ^ Z.of_nat 8). apply crc_iter_shift.
Qed.

(* ---- words of the queue ---- *)
Lemma nth_skipn' : forall (l : list Z) n i, nth i (skipn n l) 0 = nth (n + i) l 0.
Proof.
  induction l as [|x l IH]; intros n i; [rewrite skipn_nil; destruct (n + i)%nat; destruct i; reflexivity|].
  destruct n as [|n]; [reflexivity|]. cbn. apply IH.
Qed.
Lemma le_word_at : forall q k, (4 * k + 4 <= length q)%nat -> le_word (firstn 4 (skipn (4 * k) q)) = md5_word q k.
Proof.
  intros q k L. unfold md5_word, at_.
  rewrite <- (Nat.add_0_r (4 * k)) at 2. rewrite <- !nth_skipn'.
  assert (L2 : (4 <= length (skipn (4 * k) q))%nat) by (rewrite skipn_length; lia).
  destruct (skipn (4 * k) q) as [|b0 [|b1 [|b2 [|b3 r]]]]; cbn in L2; try lia.
  cbn [firstn le_word nth]. change (2 ^ 8) with 256. change (2 ^ 16) with 65536. change (2 ^ 24) with 16777216. reflexivity.
Qed.
Lemma words_nth : forall n q k, (k < n)%nat -> nth k (words n q) 0 = le_word (firstn 4 (skipn (4 * k) q)).
Proof.
  induction n as [|n IH]; intros q k Hk; [lia|]. cbn [words]. destruct k as [|k]; [reflexivity|].
  change (nth (S k) (le_word (firstn 4 q) :: words n (skipn 4 q)) 0) with (nth k (words n (skipn 4 q)) 0).
  rewrite IH by lia. f_equal. f_equal.
  assert (E : forall (A : Type) a b (l : list A), skipn a (skipn b l) = skipn (b + a) l).
  { intros A a b. induction b as [|b IHb]; intros l; [reflexivity|]. destruct l; [destruct a; reflexivity|]. cbn. apply IHb. }
  rewrite E. f_equal. lia.
Qed.
Lemma words_length : forall n q, length (words n q) = n.
Proof. induction n; intros; [reflexivity|]. cbn [words length]. rewrite IHn. reflexivity. Qed.
Lemma temp_nth : forall q k, length q = 64%nat -> (k < 16)%nat -> nth k (temp_of q) 0 = md5_word q k.
Proof. intros q k L Hk. unfold temp_of. rewrite words_nth by lia. apply le_word_at. lia. Qed.
Lemma nth_byte : forall q i, Forall is_byte q -> is_byte (at_ q i).
Proof.
  intros q i F. unfold at_. destruct (Nat.lt_ge_cases i (length q)) as [C|C]; [|rewrite nth_overflow by lia; unfold is_byte; lia].
  rewrite Forall_forall in F. apply F. apply nth_In. exact C.
Qed.
Lemma md5_word_word : forall q k, Forall is_byte q -> is_word (md5_word q k).
Proof.
  intros q k F. unfold md5_word. pose proof (nth_byte q (4 * k) F). pose proof (nth_byte q (4 * k + 1) F).
  pose proof (nth_byte q (4 * k + 2) F). pose proof (nth_byte q (4 * k + 3) F). unfold is_byte, is_word in *.
  change (2 ^ 8) with 256. change (2 ^ 16) with 65536. change (2 ^ 24) with 16777216. change (2 ^ 32) with M32. lia.
Qed.

(* ---- MD5 ---- *)
Definition md5_perm (k : nat) : reg * reg * reg * reg :=
  match Nat.modulo k 4 with
  | O => (Ra, Rb, Rc, Rd) | 1%nat => (Rd, Ra, Rb, Rc) | 2%nat => (Rc, Rd, Ra, Rb) | _ => (Rb, Rc, Rd, Ra)
  end.
Definition md5_view (k : nat) (s : regs) : Z * Z * Z * Z :=
  let '(a, b, c, d) := md5_perm k in (get a s, get b s, get c s, get d s).
Definition md5_kind (k : nat) : md5_round :=
  if Nat.ltb k 16 then R1 else if Nat.ltb k 32 then R2 else if Nat.ltb k 48 then R3 else R4.
Lemma md5_ops_ok : md5_ops = map (fun k => (md5_kind k, md5_perm k, md5_index k, md5_shift k, at_ md5_K k)) (seq 0 64).
Proof. vm_compute. reflexivity. Qed.
Definition wregs (s : regs) : Prop := is_word (ra s) /\ is_word (rb s) /\ is_word (rc s) /\ is_word (rd s).
Lemma md5_fun_ok : forall k b c d, is_word b -> is_word d -> md5_fun (md5_kind k) b c d = md5_F k b c d.
Proof.
  intros k b c d Hb Hd. unfold md5_kind, md5_F. destruct (Nat.ltb k 16), (Nat.ltb k 32), (Nat.ltb k 48); cbn [md5_fun]; rewrite ?not32_bnot by auto; reflexivity.
Qed.
Lemma md5_shift_ok : forall k, (k < 64)%nat -> 0 < md5_shift k < 32.
Proof.
  intros k Hk. unfold md5_shift. pose proof (Nat.mod_upper_bound k 4 ltac:(lia)) as H.
  destruct (Nat.modulo k 4) as [|[|[|[|x]]]]; try lia; unfold at_; destruct (Nat.ltb k 16), (Nat.ltb k 32), (Nat.ltb k 48); cbn; lia.
Qed.
Lemma md5_index_lt : forall k, (md5_index k < 16)%nat.
Proof. intros. unfold md5_index. apply Nat.mod_upper_bound. lia. Qed.

(* what one macro computes *)
Definition md5_val (x a f m ac sh : Z) : Z := u32 (rol32 (u32 (a + u32 (f + m + ac))) sh + x).
Lemma md5_val_ok : forall b a f m ac sh, 0 < sh < 32 ->
  md5_val b a f m ac sh = (b + rotl ((a + f + m + ac) mod 2 ^ 32) sh) mod 2 ^ 32.
Proof.
  intros b a f m ac sh Hs. unfold md5_val. rewrite rol32_rotl by (auto using u32_word). unfold u32. change M32 with (2 ^ 32).
  rewrite Z.add_mod_idemp_r by lia. f_equal. rewrite Z.add_comm. f_equal. f_equal. f_equal. lia.
Qed.
Lemma md5_exec_ok : forall q k s, length q = 64%nat -> (k < 64)%nat -> wregs s ->
  md5_view (S k) (md5_exec (temp_of q) s (md5_kind k, md5_perm k, md5_index k, md5_shift k, at_ md5_K k)) = md5_step q (md5_view k s) k /\
  wregs (md5_exec (temp_of q) s (md5_kind k, md5_perm k, md5_index k, md5_shift k, at_ md5_K k)).
Proof.
  intros q k s Lq Hk (Wa & Wb & Wc & Wd). unfold md5_view, md5_perm.
  pose proof (md5_shift_ok k Hk) as Hs. pose proof (md5_index_lt k) as Hi.
  assert (M4 : Nat.modulo (S k) 4 = Nat.modulo (S (Nat.modulo k 4)) 4).
  { change (S k) with (1 + k)%nat. change (S (Nat.modulo k 4)) with (1 + Nat.modulo k 4)%nat. rewrite Nat.add_mod_idemp_r by lia. reflexivity. }
  rewrite M4. pose proof (Nat.mod_upper_bound k 4 ltac:(lia)) as Hm.
  destruct (Nat.modulo k 4) as [|[|[|[|x]]]]; try lia;
    (change (Nat.modulo (S 0) 4) with 1%nat || change (Nat.modulo 2 4) with 2%nat || change (Nat.modulo 3 4) with 3%nat || change (Nat.modulo 4 4) with 0%nat);
    unfold md5_exec; cbn [get set ra rb rc rd re]; rewrite md5_fun_ok by auto; rewrite temp_nth by auto;
    unfold md5_step;
    (split; [f_equal; f_equal; f_equal; apply md5_val_ok; exact Hs|]); unfold wregs; cbn [ra rb rc rd];
    auto using u32_word.
Qed.

Lemma md5_fold_ok : forall q n k s, length q = 64%nat -> (k + n <= 64)%nat -> wregs s ->
  let s' := fold_left (md5_exec (temp_of q)) (map (fun k => (md5_kind k, md5_perm k, md5_index k, md5_shift k, at_ md5_K k)) (seq k n)) s in
  md5_view (k + n) s' = fold_left (md5_step q) (seq k n) (md5_view k s) /\ wregs s'.
Proof.
  intros q n. induction n as [|n IH]; intros k s Lq Hk W; cbn [seq map fold_left].
  - rewrite Nat.add_0_r. auto.
  - destruct (md5_exec_ok q k s Lq ltac:(lia) W) as [E W']. rewrite <- E. replace (k + S n)%nat with (S k + n)%nat by lia.
    apply IH; auto; lia.
Qed.
Definition wlist (st : list Z) : Prop := Forall is_word st.
Lemma wlist_nth : forall st i, wlist st -> is_word (nth i st 0).
Proof.
  intros st i F. destruct (Nat.lt_ge_cases i (length st)) as [C|C]; [|rewrite nth_overflow by lia; unfold is_word; lia].
  unfold wlist in F. rewrite Forall_forall in F. apply F. apply nth_In. exact C.
Qed.
Lemma md5_block_ok : forall st q, wlist st -> length q = 64%nat ->
  fst (md5_block st q) = md5_compress st q /\ wlist (md5_compress st q).
Proof.
  intros st q W L. unfold md5_block, md5_compress. rewrite md5_ops_ok.
  destruct (md5_fold_ok q 64 0 (mkregs (nth 0 st 0) (nth 1 st 0) (nth 2 st 0) (nth 3 st 0) 0) L ltac:(lia)) as [E _].
  { repeat split; apply wlist_nth; exact W. }
  cbn zeta in E. change (md5_view 0 (mkregs (nth 0 st 0) (nth 1 st 0) (nth 2 st 0) (nth 3 st 0) 0)) with (at_ st 0, at_ st 1, at_ st 2, at_ st 3) in E.
  rewrite <- E. match goal with |- context[fold_left (md5_exec _) ?l ?r] => set (w := fold_left (md5_exec (temp_of q)) l r) end.
  change (md5_view (0 + 64) w) with (ra w, rb w, rc w, rd w). cbn [fst]. split; [reflexivity|].
  unfold wlist. repeat constructor; apply u32_range || (unfold is_word; apply Z.mod_pos_bound; lia).
Qed.

(* ---- SHA-1: functions ---- *)
Lemma word_ext : forall x y, is_word x -> is_word y -> (forall i, 0 <= i < 32 -> Z.testbit x i = Z.testbit y i) -> x = y.
Proof.
  intros x y Hx Hy H. apply word_bits in Hx, Hy. apply Z.bits_inj'. intros i Hi.
  destruct (Z.lt_ge_cases i 32) as [C|C]; [apply H; lia|]. destruct Hx as [_ Bx], Hy as [_ By]. rewrite Bx, By by lia. reflexivity.
Qed.
Lemma sha1_ch : forall w x y, is_word w -> is_word x -> is_word y ->
  Z.lxor (Z.land w (Z.lxor x y)) y = Z.lxor (Z.land w x) (Z.land (bnot w) y).
Proof.
  intros w x y Hw Hx Hy.
  assert (0 <= x /\ 0 <= y /\ 0 <= Z.lxor x y) as (X0 & Y0 & XY0).
  { pose proof (lxor_word x y Hx Hy). unfold is_word in *. lia. }
  apply word_ext; auto using lxor_word, land_word, bnot_word.
  intros i Hi. rewrite !Z.lxor_spec, !Z.land_spec, Z.lxor_spec, bnot_bits by auto.
  destruct (Z.testbit w i), (Z.testbit x i), (Z.testbit y i); reflexivity.
Qed.
Lemma sha1_maj : forall w x y, Z.lor (Z.land (Z.lor w x) y) (Z.land w x) = Z.lxor (Z.lxor (Z.land w x) (Z.land w y)) (Z.land x y).
Proof.
  intros w x y. apply Z.bits_inj'. intros i Hi. rewrite !Z.lxor_spec, !Z.lor_spec, !Z.land_spec, Z.lor_spec.
  destruct (Z.testbit w i), (Z.testbit x i), (Z.testbit y i); reflexivity.
Qed.

(* masks and bytes *)
Lemma low_bits : forall k x, 0 <= k -> (forall i, k <= i -> Z.testbit x i = false) -> 0 <= x < 2 ^ k.
Proof.
  intros k x Hk B. replace x with (x mod 2 ^ k); [apply Z.mod_pos_bound; apply Z.pow_pos_nonneg; lia|].
  apply Z.bits_inj'. intros i Hi. destruct (Z.lt_ge_cases i k) as [C|C]; [apply Z.mod_pow2_bits_low; lia|].
  rewrite Z.mod_pow2_bits_high by lia. symmetry. apply B. lia.
Qed.
Lemma bits_low : forall k x i, 0 <= k -> 0 <= x < 2 ^ k -> k <= i -> Z.testbit x i = false.
Proof. intros k x i Hk Hx Hi. rewrite <- (Z.mod_small x (2 ^ k)) by lia. apply Z.mod_pow2_bits_high. lia. Qed.
Lemma land_split : forall k a b c d, 0 <= k -> 0 <= b < 2 ^ k -> 0 <= d < 2 ^ k ->
  Z.land (a * 2 ^ k + b) (c * 2 ^ k + d) = Z.land a c * 2 ^ k + Z.land b d.
Proof.
  intros k a b c d Hk Hb Hd.
  assert (Hbd : 0 <= Z.land b d < 2 ^ k).
  { apply low_bits; [lia|]. intros i Hi. rewrite Z.land_spec, (bits_low k b i) by lia. reflexivity. }
  rewrite <- !lor_add by lia. apply Z.bits_inj'. intros i Hi. rewrite !Z.land_spec, !Z.lor_spec, !Z.land_spec.
  destruct (Z.lt_ge_cases i k) as [C|C].
  - rewrite !Z.mul_pow2_bits_low by lia. reflexivity.
  - assert (Hz : forall z, 0 <= z < 2 ^ k -> Z.testbit z i = false) by (intros z Hz; rewrite <- (Z.mod_small z (2 ^ k)) by lia; apply Z.mod_pow2_bits_high; lia).
    rewrite !(Hz b), !(Hz d) by auto. rewrite !Z.mul_pow2_bits by lia. rewrite Z.land_spec. rewrite !orb_false_r. reflexivity.
Qed.
Lemma lor_split : forall k a b c d, 0 <= k -> 0 <= b < 2 ^ k -> 0 <= d < 2 ^ k ->
  Z.lor (a * 2 ^ k + b) (c * 2 ^ k + d) = Z.lor a c * 2 ^ k + Z.lor b d.
Proof.
  intros k a b c d Hk Hb Hd.
  assert (Hbd : 0 <= Z.lor b d < 2 ^ k).
  { apply low_bits; [lia|]. intros i Hi. rewrite Z.lor_spec, (bits_low k b i), (bits_low k d i) by lia. reflexivity. }
  rewrite <- !lor_add by lia. apply Z.bits_inj'. intros i Hi. rewrite !Z.lor_spec.
  destruct (Z.lt_ge_cases i k) as [C|C].
  - rewrite !Z.mul_pow2_bits_low by lia. reflexivity.
  - assert (Hz : forall z, 0 <= z < 2 ^ k -> Z.testbit z i = false) by (intros z Hz; rewrite <- (Z.mod_small z (2 ^ k)) by lia; apply Z.mod_pow2_bits_high; lia).
    rewrite !(Hz b), !(Hz d) by auto. rewrite !Z.mul_pow2_bits by lia. rewrite Z.lor_spec. rewrite !orb_false_r. reflexivity.
Qed.
Lemma land_ff : forall x, is_byte x -> Z.land x 255 = x.
Proof. intros x H. change 255 with (2 ^ 8 - 1). rewrite land_ones_mod by lia. apply Z.mod_small. exact H. Qed.
Lemma swap_ok : forall b0 b1 b2 b3, is_byte b0 -> is_byte b1 -> is_byte b2 -> is_byte b3 ->
  let w := b0 + 2 ^ 8 * b1 + 2 ^ 16 * b2 + 2 ^ 24 * b3 in
  Z.lor (Z.land (rol32 w 24) 0xFF00FF00) (Z.land (rol32 w 8) 0x00FF00FF) = 2 ^ 24 * b0 + 2 ^ 16 * b1 + 2 ^ 8 * b2 + b3.
Proof.
  intros b0 b1 b2 b3 H0 H1 H2 H3 w. pose proof H0 as J0. pose proof H1 as J1. pose proof H2 as J2. pose proof H3 as J3. unfold is_byte in J0, J1, J2, J3.
  assert (Ew : w = b0 + 256 * b1 + 65536 * b2 + 16777216 * b3) by reflexivity.
  assert (Hw : is_word w) by (unfold is_word; change (2 ^ 32) with M32; lia).
  rewrite !rol32_rotl by (auto; lia). unfold rotl. change (2 ^ 24) with 16777216. change (2 ^ (32 - 24)) with 256. change (2 ^ 8) with 256.
  change (2 ^ (32 - 8)) with 16777216. change (2 ^ 32) with M32. change (2 ^ 16) with 65536.
  assert (E1 : (w * 16777216) mod M32 + w / 256 = ((b0 * 256 + b3) * 256 + b2) * 256 + b1).
  { rewrite Ew. clear - J0 J1 J2 J3. Ltac Zify.zify_post_hook ::= Z.div_mod_to_equations. lia. }
  assert (E2 : (w * 256) mod M32 + w / 16777216 = ((b2 * 256 + b1) * 256 + b0) * 256 + b3).
  { rewrite Ew. clear - J0 J1 J2 J3. lia. }
  Ltac Zify.zify_post_hook ::= idtac.
  rewrite E1, E2. change 0xFF00FF00 with (((255 * 256 + 0) * 256 + 255) * 256 + 0). change 0x00FF00FF with (((0 * 256 + 255) * 256 + 0) * 256 + 255).
  change 256 with (2 ^ 8). rewrite !land_split by (change (2 ^ 8) with 256; lia). rewrite !land_ff by auto. rewrite !Z.land_0_r.
  rewrite !lor_split by (change (2 ^ 8) with 256; lia). rewrite !Z.lor_0_r, !Z.lor_0_l. change (2 ^ 8) with 256. lia.
Qed.
