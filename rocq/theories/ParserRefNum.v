(** The check of ISO 7064 mod 97-10 as the account number parsers compute it (properties C66 and C114). *)
From Coq Require Import ZifyBool ZifyNat.
From Verif Require Import Base StringModel StringSpec StringProofs StringProps ParserModel ParserSpec ParserInt ParserRefModel ParserRefSpec.
Ltac Zify.zify_post_hook ::= Z.div_mod_to_equations.

(** a character as decimal digits *)
Definition spell (c : Z) : list Z := if is_dec c then [c] else [48 + digit_value c / 10; 48 + digit_value c mod 10].
Definition spells (l : list Z) : list Z := flat_map spell l.
Lemma dec_value : forall c, is_dec c = true -> digit_value c = c - 48.
Proof. intros c H. unfold is_dec in H. unfold digit_value. rewrite H. reflexivity. Qed.
Lemma capital_value : forall c, capital c = true -> digit_value c = c - 55 /\ is_dec c = false.
Proof. intros c H. unfold capital in H. unfold digit_value, is_dec. replace ((48 <=? c) && (c <=? 57)) with false by lia. rewrite H. auto. Qed.
Lemma spell_dec : forall l, Forall (fun c => cap_or_dec c = true) l -> Forall (fun c => is_dec c = true) (spells l).
Proof.
  intros l H. induction H as [|c l Hc H IH]; [constructor|]. cbn [spells flat_map]. apply Forall_app. split; [|exact IH]. unfold spell. destruct (is_dec c) eqn:D; [auto|].
  unfold cap_or_dec in Hc. rewrite D in Hc. cbn [orb] in Hc. destruct (capital_value c Hc) as [-> _]. unfold capital in Hc. unfold is_dec. repeat constructor; lia.
Qed.
Lemma spells_length : forall l, Forall (fun c => cap_or_dec c = true) l -> length (spells l) = (length l + letters l)%nat.
Proof.
  intros l H. unfold letters. induction H as [|c l Hc H IH]; [reflexivity|]. cbn [spells flat_map filter length]. rewrite app_length. unfold spells in IH. rewrite IH. unfold spell, cap_or_dec in *. destruct (is_dec c) eqn:D.
  - replace (capital c) with false by (unfold is_dec, capital in *; lia). cbn [length]. lia.
  - cbn [orb] in Hc. rewrite Hc. cbn [length]. lia.
Qed.
Lemma spells_value : forall l, Forall (fun c => cap_or_dec c = true) l -> numeral_value 10 (spells l) = iso_number l.
Proof.
  intros l. unfold numeral_value, iso_number. generalize 0. induction l as [|c l IH]; intros z H; [reflexivity|]. inversion H as [|? ? Hc Hl]; subst. cbn [spells flat_map fold_left]. rewrite fold_left_app. unfold spells in IH. rewrite <- IH by auto. f_equal.
  unfold spell. destruct (is_dec c) eqn:D; [reflexivity|]. unfold cap_or_dec in Hc. rewrite D in Hc. cbn [orb] in Hc. destruct (capital_value c Hc) as [V _]. cbn [fold_left].
  assert (10 <= digit_value c <= 35) by (rewrite V; unfold capital in Hc; lia). rewrite (dec_value (48 + digit_value c / 10)), (dec_value (48 + digit_value c mod 10)) by (unfold is_dec; lia). lia.
Qed.
(** ** the array *)
Lemma put_spec : forall cap buf c, put cap buf c = if (length (buf ++ [c]) <=? cap)%nat then Ret (buf ++ [c]) else UB.
Proof. intros. unfold put. rewrite app_length. cbn [length]. destruct (length buf <? cap)%nat eqn:E; [replace (length buf + 1 <=? cap)%nat with true by lia|replace (length buf + 1 <=? cap)%nat with false by lia]; reflexivity. Qed.
Lemma put_letter_spec : forall cap buf c, capital c = true -> (length buf <= cap)%nat -> put_letter cap buf c = if (length (buf ++ spell c) <=? cap)%nat then Ret (buf ++ spell c) else UB.
Proof.
  intros cap buf c Hc Hb. destruct (capital_value c Hc) as [V D]. unfold capital in Hc. unfold spell. rewrite D, V. unfold put_letter.
  assert (X : forall a b, (let* b0 := put cap buf a in put cap b0 b) = if (length (buf ++ [a; b]) <=? cap)%nat then Ret (buf ++ [a; b]) else UB).
  { intros a b. rewrite put_spec. rewrite !app_length. cbn [length]. destruct (length buf + 1 <=? cap)%nat eqn:E1; cbn [obind].
    - rewrite put_spec, <- app_assoc, !app_length. cbn [app length]. reflexivity.
    - replace (length buf + 2 <=? cap)%nat with false by lia. reflexivity. }
  destruct ((65 <=? c) && (c <=? 74)) eqn:E1; [|destruct ((75 <=? c) && (c <=? 84)) eqn:E2; [|replace ((85 <=? c) && (c <=? 90)) with true by lia]]; rewrite X.
  - replace (48 + (c - 55) / 10) with 49 by lia. replace (48 + (c - 55) mod 10) with (48 + c - 65) by lia. reflexivity.
  - replace (48 + (c - 55) / 10) with 50 by lia. replace (48 + (c - 55) mod 10) with (48 + c - 75) by lia. reflexivity.
  - replace (48 + (c - 55) / 10) with 51 by lia. replace (48 + (c - 55) mod 10) with (48 + c - 85) by lia. reflexivity.
Qed.
Lemma put_chars_spec : forall cap cs buf rest, (length buf <= cap)%nat -> Forall (fun c => cap_or_dec c = true) cs ->
  put_chars cap buf (cs ++ 0 :: rest) = if (length (buf ++ spells cs) <=? cap)%nat then Ret (buf ++ spells cs) else UB.
Proof.
  intros cap cs. induction cs as [|c cs IH]; intros buf rest Hb H; cbn [app put_chars].
  - cbn [spells flat_map]. rewrite app_nil_r. replace (length buf <=? cap)%nat with true by lia. reflexivity.
  - inversion H as [|? ? Hc Hl]; subst. replace (c =? 0) with false by (unfold cap_or_dec, is_dec, capital in Hc; lia).
    assert (X : (if (48 <=? c) && (c <=? 57) then put cap buf c else put_letter cap buf c) = if (length (buf ++ spell c) <=? cap)%nat then Ret (buf ++ spell c) else UB).
    { unfold cap_or_dec in Hc. change ((48 <=? c) && (c <=? 57)) with (is_dec c). destruct (is_dec c) eqn:D; [unfold spell; rewrite D; apply put_spec|]. apply put_letter_spec; auto. }
    rewrite X. cbn [spells flat_map]. rewrite app_assoc. destruct (length (buf ++ spell c) <=? cap)%nat eqn:E; cbn [obind].
    + rewrite IH by (auto; lia). reflexivity.
    + replace (length ((buf ++ spell c) ++ flat_map spell cs) <=? cap)%nat with false by (rewrite app_length; lia). reflexivity.
Qed.
Lemma put_all_spec : forall cap l buf, (length buf <= cap)%nat -> put_all (put cap) buf l = if (length (buf ++ l) <=? cap)%nat then Ret (buf ++ l) else UB.
Proof.
  intros cap l. induction l as [|c l IH]; intros buf Hb; cbn [put_all].
  - rewrite app_nil_r. replace (length buf <=? cap)%nat with true by lia. reflexivity.
  - rewrite put_spec. replace (buf ++ c :: l) with ((buf ++ [c]) ++ l) by (rewrite <- app_assoc; reflexivity). destruct (length (buf ++ [c]) <=? cap)%nat eqn:E; cbn [obind].
    + apply IH. lia.
    + replace (length ((buf ++ [c]) ++ l) <=? cap)%nat with false by (rewrite (app_length (buf ++ [c])); lia). reflexivity.
Qed.
(** ** modulo 97 *)
Lemma value_app : forall a b, numeral_value 10 (a ++ b) = fold_left (fun v c => v * 10 + digit_value c) b (numeral_value 10 a).
Proof. intros. unfold numeral_value. apply fold_left_app. Qed.
Lemma value_bound : forall ds v k, Forall (fun c => is_dec c = true) ds -> 0 <= v < 10 ^ k -> 0 <= k -> 0 <= fold_left (fun v c => v * 10 + digit_value c) ds v < 10 ^ (k + Z.of_nat (length ds)).
Proof.
  induction ds as [|c ds IH]; intros v k H Hv Hk; cbn [fold_left length]. { rewrite Z.add_0_r. auto. }
  inversion H as [|? ? Hc Hl]; subst. replace (k + Z.of_nat (S (length ds))) with ((k + 1) + Z.of_nat (length ds)) by lia. apply IH; auto; [|lia]. rewrite dec_value by auto. rewrite Z.pow_add_r by lia. unfold is_dec in Hc. lia.
Qed.
Lemma fold_mod : forall ds v w m, v mod 97 = w mod 97 -> m = 97 -> (fold_left (fun v c => v * 10 + digit_value c) ds v) mod m = (fold_left (fun v c => v * 10 + digit_value c) ds w) mod m.
Proof.
  intros ds v w m H ->. revert v w H. induction ds as [|c ds IH]; intros v w H; cbn [fold_left]; auto. apply IH. rewrite Z.add_mod, Z.mul_mod, H, <- Z.mul_mod, <- Z.add_mod by lia. reflexivity.
Qed.
Lemma nine_spec : forall k ds p v dc, Forall (fun c => is_dec c = true) ds -> 0 <= v < 10 ^ dc -> 0 <= dc -> dc + Z.of_nat k = 9 ->
  let n := Nat.min k (length ds) in
  nine_loop k (p ++ ds ++ [0]) v (length p) = Ret (fold_left (fun v c => v * 10 + digit_value c) (firstn n ds) v, (length p + n)%nat).
Proof.
  induction k as [|k IH]; intros ds p v dc H Hv Hd Hk; cbv zeta; cbn [nine_loop Nat.min firstn fold_left]. { rewrite Nat.add_0_r. reflexivity. }
  unfold rd. rewrite nth_error_app2, Nat.sub_diag by lia. destruct ds as [|c ds]; cbn [app nth_error obind length firstn fold_left]. { rewrite Nat.add_0_r. reflexivity. }
  inversion H as [|? ? Hc Hl]; subst. rewrite (dec_value c Hc). unfold is_dec in Hc. replace (c =? 0) with false by lia.
  assert (B : 10 ^ (dc + 1) <= 10 ^ 9) by (apply Z.pow_le_mono_r; lia). rewrite Z.pow_add_r in B by lia. change (10 ^ 9) with 1000000000 in B. change (10 ^ 1) with 10 in B.
  assert (u32 (u32 (v * 10) + u32 (c - 48)) = v * 10 + (c - 48)) as -> by (unfold u32; rewrite !Z.mod_small; lia).
  specialize (IH ds (p ++ [c]) (v * 10 + (c - 48)) (dc + 1) Hl). rewrite Z.pow_add_r in IH by lia. specialize (IH ltac:(lia) ltac:(lia) ltac:(lia)). cbv zeta in IH. rewrite <- app_assoc in IH. cbn [app] in IH. rewrite app_length in IH. cbn [length] in IH. rewrite Nat.add_1_r in IH. rewrite IH. f_equal. f_equal. lia.
Qed.
Lemma mod_loop_spec : forall fuel ds p v, Forall (fun c => is_dec c = true) ds -> 0 <= v -> (length ds < fuel)%nat ->
  mod_loop fuel (p ++ ds ++ [0]) v (length p) = Ret ((fold_left (fun v c => v * 10 + digit_value c) ds v) mod 97 =? 1).
Proof.
  induction fuel as [|fuel IH]; intros ds p v H Hv Hf; [lia|]. cbn [mod_loop]. unfold rd. rewrite nth_error_app2, Nat.sub_diag by lia. destruct ds as [|c ds]. { cbn [app nth_error obind fold_left]. reflexivity. }
  cbn [app nth_error obind]. pose proof (Forall_inv H) as Hc. cbv beta in Hc. replace (c =? 0) with false by (unfold is_dec in Hc; lia).
  set (w := v mod 97). assert (Hw : 0 <= w < 97) by (subst w; apply Z.mod_pos_bound; lia).
  assert (Ew : v mod 97 = w mod 97) by (subst w; rewrite Z.mod_mod by lia; reflexivity). clearbody w.
  set (dc := if w =? 0 then 0%nat else if w <? 10 then 1%nat else 2%nat).
  assert (Hdc : (dc <= 2)%nat /\ 0 <= w < 10 ^ Z.of_nat dc). { subst dc. destruct (w =? 0) eqn:E0; [split; [lia|]; change (10 ^ Z.of_nat 0) with 1; lia|]. destruct (w <? 10) eqn:E1; (split; [lia|]); [change (10 ^ Z.of_nat 1) with 10|change (10 ^ Z.of_nat 2) with 100]; lia. }
  clearbody dc. pose proof (nine_spec (9 - dc) (c :: ds) p w (Z.of_nat dc) H (proj2 Hdc) ltac:(lia) ltac:(lia)) as N. cbv zeta in N. cbn [app] in N. rewrite N. cbn [obind]. clear N.
  set (n := Nat.min (9 - dc) (length (c :: ds))). assert (Hn : (0 < n <= length (c :: ds))%nat) by (subst n; cbn [length]; lia). clearbody n.
  pose proof (firstn_skipn n (c :: ds)) as Fs. set (a := firstn n (c :: ds)) in *. set (b := skipn n (c :: ds)) in *.
  assert (La : length a = n) by (subst a; rewrite firstn_length; lia). assert (Lb : (length b < fuel)%nat) by (subst b; rewrite skipn_length; lia).
  assert (Ha : Forall (fun c => is_dec c = true) a /\ Forall (fun c => is_dec c = true) b) by (rewrite <- Fs in H; apply Forall_app in H; exact H).
  change (c :: ds ++ [0]) with ((c :: ds) ++ [0]). rewrite <- Fs. clearbody a b. clear Fs. rewrite <- La, <- app_length, <- app_assoc, (app_assoc p a).
  rewrite IH; [|tauto| |exact Lb].
  - f_equal. f_equal. rewrite fold_left_app. apply fold_mod; auto. apply fold_mod; auto.
  - apply (value_bound a w 2); [tauto|change (10 ^ 2) with 100; lia|lia].
Qed.
Lemma take_while_true : forall p l, Forall (fun c => p c = true) l -> take_while p l = l.
Proof. intros p l H. induction H as [|c l Hc H IH]; cbn [take_while]; auto. rewrite Hc, IH. reflexivity. Qed.
Lemma zstr_dec : forall n ds rest, Forall (fun c => is_dec c = true) ds -> zstr n (ds ++ 0 :: rest) = firstn n ds.
Proof.
  induction n as [|n IH]; intros ds rest H; [reflexivity|]. destruct ds as [|c ds]; cbn [app zstr firstn]; [reflexivity|]. inversion H as [|? ? Hc Hl]; subst. replace (c =? 0) with false by (unfold is_dec in Hc; lia). rewrite IH by auto. reflexivity.
Qed.
Lemma Forall_first : forall (p : Z -> Prop) n l, Forall p l -> Forall p (firstn n l).
Proof. intros p n l H. rewrite <- (firstn_skipn n l) in H. apply Forall_app in H. tauto. Qed.
Theorem mod97_spec : forall ds, ds <> [] -> Forall (fun c => is_dec c = true) ds -> mod97 (ds ++ [0]) = Ret (numeral_value 10 ds mod 97 =? 1).
Proof.
  intros ds N H. unfold mod97. assert (Q : read_numeral 10 (zstr 9 (ds ++ [0])) = Numeral false 10 (firstn 9 ds) (length (firstn 9 ds))).
  { rewrite zstr_dec by auto. pose proof (Forall_first _ 9 _ H) as F. destruct ds as [|c ds]; [congruence|]. change (firstn 9 (c :: ds)) with (c :: firstn 8 ds) in *. set (r := firstn 8 ds) in *. clearbody r. inversion F as [|? ? Hc Hr]; subst. assert (T : take_while (fun c => digit_value c <? 10) (c :: r) = c :: r). { apply take_while_true. eapply Forall_impl; [|exact F]. intros x Hx. cbv beta in Hx. rewrite dec_value by auto. unfold is_dec in Hx. lia. }
    assert (W : take_while white (c :: r) = [] /\ drop_while white (c :: r) = c :: r) by (cbn [take_while drop_while]; replace (white c) with false by (unfold is_dec in Hc; unfold white; lia); auto).
    unfold read_numeral. destruct W as [-> ->]. cbv zeta. unfold is_dec in Hc. replace (c =? 43) with false by lia. replace (c =? 45) with false by lia. change (10 =? 16) with false. change (10 =? 0) with false. cbv iota beta. rewrite T. reflexivity. }
  pose proof (strtouint_spec 32 (ds ++ [0]) 9 10 ltac:(lia) ltac:(right; apply in_or_app; right; left; reflexivity) ltac:(lia)) as S. cbv zeta in S. rewrite Q in S. cbn [negative radix_of digits_of consumed] in S. rewrite S by reflexivity. cbn [obind].
  assert (B : 0 <= numeral_value 10 (firstn 9 ds) < 10 ^ (0 + Z.of_nat (length (firstn 9 ds)))) by (apply (value_bound (firstn 9 ds) 0 0); [apply Forall_first; auto|lia|lia]).
  assert (B9 : 10 ^ (0 + Z.of_nat (length (firstn 9 ds))) <= 10 ^ 9) by (apply Z.pow_le_mono_r; [lia|]; rewrite firstn_length; lia). change (10 ^ 9) with 1000000000 in B9.
  unfold clamp. change (2 ^ 32 - 1) with 4294967295. rewrite Z.min_r, Z.max_r by lia.
  assert (E : ds ++ [0] = firstn 9 ds ++ skipn 9 ds ++ [0]) by (rewrite app_assoc, firstn_skipn; reflexivity). rewrite E at 2.
  assert (E2 : numeral_value 10 ds = numeral_value 10 (firstn 9 ds ++ skipn 9 ds)) by (rewrite firstn_skipn; reflexivity).
  rewrite mod_loop_spec; [rewrite <- value_app, <- E2; reflexivity| |lia|rewrite app_length, skipn_length; cbn [length]; lia].
  rewrite <- (firstn_skipn 9 ds) in H. apply Forall_app in H. tauto.
Qed.
Print Assumptions mod97_spec.
