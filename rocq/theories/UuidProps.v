(** Theorems about include/stdex/uuid.hpp: property C62. *)
From Verif Require Import Base Bits StreamModel StringModel StringSpec StringProofs StringSearch StringTrim StringProps UuidModel UuidSpec.
From Coq Require Import ZifyBool ZifyNat.
Ltac Zify.zify_post_hook ::= Z.div_mod_to_equations.

Local Notation nz := (Forall (fun c : Z => c <> 0)).
(** What strtouuid computes, on the text alone. *)
Definition t_expect (c : Z) (t : list Z) : option (list Z) := match t with x :: r => if x =? c then Some r else None | [] => None end.
Definition reading (q : numeral) : Z := loose_value (negative q) (digits_of q).
Definition t_field (max : Z) (t : list Z) : option (Z * list Z) :=
  let t1 := drop_while white t in
  let q := read_numeral 16 t1 in
  if max <? reading q then None else Some (reading q, drop_while white (skipn (consumed q) t1)).
Inductive lres : Type := LNone | LSome (id : list Z) | LEnd.
Definition lb {A} (a : option A) (f : A -> lres) : lres := match a with None => LNone | Some x => f x end.
Definition lenient (t : list Z) : lres :=
  lb (t_expect 123 (drop_while white t)) (fun t => lb (t_field 4294967295 t) (fun '(a, t) =>
  lb (t_expect 45 t) (fun t => lb (t_field 65535 t) (fun '(b, t) =>
  lb (t_expect 45 t) (fun t => lb (t_field 65535 t) (fun '(c, t) =>
  lb (t_expect 45 t) (fun t => lb (t_field 65535 t) (fun '(d, t) =>
  match t with
  | [] => LEnd
  | _ :: t => lb (t_field 281474976710655 t) (fun '(e, t) =>
    lb (t_expect 125 t) (fun t => match drop_while white t with [] => LSome (uuid_bytes a b c d e) | _ => LNone end))
  end)))))))).

Section Pos.
Variables (J : list Z) (d : nat).
Hypothesis HJ : d = O \/ exists j, J = 0 :: j.
Definition at_ (t : list Z) : list Z * nat := (t ++ J, (length t + d)%nat).

Lemma nz_skip : forall n t, nz t -> nz (skipn n t).
Proof. induction n; intros t H; auto. destruct t; auto. inversion H; subst. cbn. auto. Qed.
Lemma nz_drop : forall p t, nz t -> nz (drop_while p t).
Proof. induction t; intros H; auto. inversion H; subst. cbn. destruct (p a); auto. Qed.
Lemma at_zstr : forall t, nz t -> zstr (length t + d) (t ++ J) = t.
Proof.
  induction 1 as [|c t Hc Ht IH]; cbn [length Nat.add app].
  - destruct d; auto. destruct HJ as [X|[j ->]]; [discriminate|reflexivity].
  - cbn [zstr]. destruct (c =? 0) eqn:E; [lia|]. f_equal. auto.
Qed.
Lemma at_readable : forall t, readable (length t + d) (t ++ J).
Proof.
  intros. destruct HJ as [->|[j ->]]; [left|right].
  - rewrite app_length. lia.
  - apply in_or_app. right. left. auto.
Qed.
Lemma skip_ws_spec : forall t, nz t -> skip_ws (t ++ J) (length t + d) = Ret (at_ (drop_while white t)).
Proof.
  induction 1 as [|c t Hc Ht IH]; cbn [length Nat.add app].
  - unfold at_. cbn. destruct d as [|n]; [reflexivity|]. destruct HJ as [X|[j ->]]; [discriminate|]. cbn. reflexivity.
  - cbn [skip_ws drop_while]. rewrite isspace_white. replace (c =? 0) with false by lia. cbn [negb andb].
    destruct (white c); [exact IH|]. reflexivity.
Qed.
Lemma expect_spec : forall c t, c <> 0 -> nz t -> expect c (at_ t) = Ret (option_map at_ (t_expect c t)).
Proof.
  intros c t Hc Ht. unfold expect, at_. cbn [fst snd]. destruct t as [|x t]; cbn [length Nat.add app t_expect option_map].
  - destruct d as [|n]; [reflexivity|]. destruct HJ as [X|[j ->]]; [discriminate|]. unfold rd. cbn [nth_error obind]. replace (0 =? c) with false by lia. reflexivity.
  - unfold rd. cbn [nth_error obind skipn]. destruct (x =? c); reflexivity.
Qed.
Lemma strtou64_spec : forall t, nz t -> strtouint 64 (t ++ J) (length t + d) 16 = Ret (reading (read_numeral 16 t), consumed (read_numeral 16 t)).
Proof.
  intros t Ht. destruct (strtoint_core_spec (2 ^ 64 - 1) (t ++ J) (length t + d) 16 ltac:(lia) (at_readable t) ltac:(lia)) as (v & E & R & V).
  rewrite at_zstr in E, V by auto. pose proof (numeral_nonneg 16 t ltac:(lia)) as NN.
  assert (RX : radix_of (read_numeral 16 t) = 16).
  { unfold read_numeral. destruct (match drop_while white t with [] => _ | _ => _ end) as [[ng sg] t2]. cbn [Z.eqb Pos.eqb].
    destruct t2 as [|z [|x r]]; cbn [radix_of]; auto. destruct (_ && _); reflexivity. }
  rewrite RX in *. unfold strtouint. rewrite E. cbn [obind nv nend nneg novf]. f_equal. f_equal.
  unfold reading, loose_value, hexv. set (h := numeral_value 16 _) in *. clearbody h.
  destruct (h <=? 2 ^ 64 - 1) eqn:EH; cbn [negb].
  - rewrite (V ltac:(lia)). destruct (negative _).
    + unfold Z.lnot. rewrite Z.mod_small_iff in *|| idtac. assert (P : Z.pred (- h) mod 2 ^ 64 = 2 ^ 64 - 1 - h).
      { symmetry. apply (Z.mod_unique_pos _ _ (-1)); lia. } lia.
    + lia.
  - destruct (negative _); lia.
Qed.
Lemma consumed_le : forall t, (consumed (read_numeral 16 t) <= length t)%nat.
Proof.
  assert (TW : forall p l, (length (take_while p l) <= length l)%nat) by (induction l; cbn; [lia|destruct (p a); cbn; lia]).
  assert (TD : forall p l, (length (take_while p l) + length (drop_while p l) = length l)%nat) by (induction l; cbn; [lia|destruct (p a); cbn; lia]).
  intros t. unfold read_numeral. pose proof (TD white t).
  assert (A : forall (neg : bool) (sg : nat) (t2 : list Z), (sg + length t2 <= length (drop_while white t))%nat ->
    (consumed (let '(rx, p, t3) := match t2 with z :: x :: r => if ((z =? 48) && ((x =? 120) || (x =? 88)))%Z then (16%Z, 2%nat, r) else (16%Z, 0%nat, t2) | _ => (16%Z, 0%nat, t2) end in
     let ds := take_while (fun c => (digit_value c <? rx)%Z) t3 in Numeral neg rx ds (length (take_while white t) + sg + p + length ds)) <= length t)%nat).
  { intros neg sg t2 L. destruct t2 as [|z [|x r]]; [cbn in *; lia| |].
    - pose proof (TW (fun c => digit_value c <? 16) [z]). cbn [length consumed] in *. lia.
    - destruct (_ && _).
      + pose proof (TW (fun c => digit_value c <? 16) r). cbn [length consumed] in *. lia.
      + pose proof (TW (fun c => digit_value c <? 16) (z :: x :: r)). cbn [length consumed] in *. lia. }
  destruct (drop_while white t) as [|c r] eqn:ED; [apply (A false O []); cbn; lia|].
  destruct (c =? 43); [apply (A false 1%nat r); cbn; lia|]. destruct (c =? 45); [apply (A true 1%nat r); cbn; lia|apply (A false O (c :: r)); cbn; lia].
Qed.
Lemma field_spec : forall max t, nz t -> field max (at_ t) = Ret (option_map (fun '(v, t') => (v, at_ t')) (t_field max t)).
Proof.
  intros max t Ht. unfold field, t_field. cbn [at_ fst snd]. rewrite skip_ws_spec by auto. unfold at_ at 1. cbn [obind].
  pose proof (nz_drop white t Ht) as N1. set (t1 := drop_while white t) in *. clearbody t1.
  rewrite strtou64_spec by auto. cbn [obind]. destruct (max <? reading _); [reflexivity|].
  pose proof (consumed_le t1) as L. set (j := consumed _) in *. clearbody j.
  rewrite skipn_app. replace (j - length t1)%nat with O by lia. cbn [skipn].
  replace (length t1 + d - j)%nat with (length (skipn j t1) + d)%nat by (rewrite skipn_length; lia).
  rewrite skip_ws_spec by (apply nz_skip; auto). reflexivity.
Qed.
Lemma t_expect_nz : forall c t r, nz t -> t_expect c t = Some r -> nz r.
Proof. intros c [|x t] r H E; cbn in E; [discriminate|]. destruct (x =? c); [|discriminate]. injection E as <-. inversion H; auto. Qed.
Lemma t_field_nz : forall m t v r, nz t -> t_field m t = Some (v, r) -> nz r.
Proof. intros m t v r H E. unfold t_field in E. destruct (_ <? _); [discriminate|]. injection E as _ <-. apply nz_drop, nz_skip, nz_drop. auto. Qed.

Definition rel (x : outcome (option (list Z))) (l : lres) : Prop :=
  match l with
  | LNone => x = Ret None
  | LSome id => x = Ret (Some id)
  | LEnd => exists g : list Z * nat -> outcome (option (list Z)), x = obind2 (expect_dash4 (at_ [])) g
  end.
Lemma rel_expect : forall c t f g, c <> 0 -> nz t -> (forall r, nz r -> rel (g (at_ r)) (f r)) -> rel (obind2 (expect c (at_ t)) g) (lb (t_expect c t) f).
Proof.
  intros c t f g Hc Hn H. rewrite expect_spec by auto. unfold obind2. cbn [obind]. destruct (t_expect c t) as [r|] eqn:E; cbn [option_map lb]; [|reflexivity].
  apply H. eapply t_expect_nz; eauto.
Qed.
Lemma rel_field : forall m t f g, nz t -> (forall v r, nz r -> rel (g (v, at_ r)) (f (v, r))) -> rel (obind2 (field m (at_ t)) g) (lb (t_field m t) f).
Proof.
  intros m t f g Hn H. rewrite field_spec by auto. unfold obind2. cbn [obind]. destruct (t_field m t) as [[v r]|] eqn:E; cbn [option_map lb]; [|reflexivity].
  apply H. eapply t_field_nz; eauto.
Qed.
Lemma strtouuid_lenient : forall t, nz t -> rel (strtouuid (t ++ J) (length t + d)) (lenient t).
Proof.
  intros t Ht. unfold strtouuid, lenient. rewrite skip_ws_spec by auto. cbn [obind].
  pose proof (nz_drop white t Ht) as N0. set (t0 := drop_while white t) in *. clearbody t0.
  apply rel_expect; [discriminate|auto|intros t1 N1]. apply rel_field; [auto|intros a t2 N2].
  apply rel_expect; [discriminate|auto|intros t3 N3]. apply rel_field; [auto|intros b t4 N4].
  apply rel_expect; [discriminate|auto|intros t5 N5]. apply rel_field; [auto|intros c t6 N6].
  apply rel_expect; [discriminate|auto|intros t7 N7]. apply rel_field; [auto|intros e t8 N8].
  destruct t8 as [|x t9].
  - eexists. reflexivity.
  - inversion N8; subst. unfold expect_dash4. cbn [at_ fst snd length Nat.add app]. unfold obind2 at 1. cbn [obind].
    change (t9 ++ J, (length t9 + d)%nat) with (at_ t9).
    apply rel_field; [auto|intros f t10 N10]. apply rel_expect; [discriminate|auto|intros t11 N11].
    cbn [at_ fst snd]. rewrite skip_ws_spec by auto. unfold at_. cbn [obind].
    pose proof (nz_drop white t11 N11) as N12. destruct (drop_while white t11) as [|y t12]; cbn [length Nat.add app].
    + destruct d; [reflexivity|]. destruct HJ as [X|[j ->]]; [discriminate|reflexivity].
    + unfold rd. cbn [nth_error obind]. inversion N12; subst. replace (y =? 0) with false by lia. reflexivity.
Qed.
End Pos.

(** *** Reading of groups *)
Lemma hexd_value : forall c, hexd c <-> digit_value c < 16.
Proof. intros. unfold hexd, digit_value. destruct ((48 <=? c) && (c <=? 57)) eqn:A; [lia|]. destruct ((65 <=? c) && (c <=? 90)) eqn:B; [lia|]. destruct ((97 <=? c) && (c <=? 122)) eqn:C; lia. Qed.
Lemma take_hex : forall ds r, Forall hexd ds -> match r with c :: _ => ~ hexd c | [] => True end ->
  take_while (fun c => digit_value c <? 16) (ds ++ r) = ds.
Proof.
  induction 1 as [|c ds Hc Hds IH]; intros Hr; cbn.
  - destruct r; auto. cbn. rewrite hexd_value in Hr. replace (_ <? _) with false by lia. auto.
  - rewrite hexd_value in Hc. replace (digit_value c <? 16) with true by lia. f_equal. auto.
Qed.
Lemma hexd_not : forall c, hexd c -> white c = false /\ c <> 43 /\ c <> 45 /\ c <> 120 /\ c <> 88 /\ c <> 0.
Proof. unfold hexd, white. intros. lia. Qed.
Lemma drop_none : forall c t, white c = false -> drop_while white (c :: t) = c :: t /\ take_while white (c :: t) = [].
Proof. intros c t H. cbn. rewrite H. auto. Qed.
Lemma read_group : forall ds c r, Forall hexd ds -> ds <> [] -> ~ hexd c -> c <> 120 -> c <> 88 ->
  read_numeral 16 (ds ++ c :: r) = Numeral false 16 ds (length ds).
Proof.
  intros ds c r Hd Hne Hc C1 C2. unfold read_numeral. destruct ds as [|x ds]; [congruence|]. inversion Hd as [|? ? Hx Hds]; subst.
  destruct (hexd_not x Hx) as (Wx & X1 & X2 & X3 & X4 & X5). cbn [app].
  destruct (drop_none x (ds ++ c :: r) Wx) as [-> ->]. replace (x =? 43) with false by lia. replace (x =? 45) with false by lia.
  cbn [Z.eqb Pos.eqb].
  assert (E : exists y u, ds ++ c :: r = y :: u /\ y <> 120 /\ y <> 88).
  { destruct ds as [|y ds]; cbn [app]; [eauto|]. inversion Hds; subst. destruct (hexd_not y); auto. exists y. eexists. split; [reflexivity|]. lia. }
  destruct E as (y & u & E & Y1 & Y2). rewrite E. replace ((x =? 48) && ((y =? 120) || (y =? 88))) with false by lia.
  rewrite <- E. cbv beta iota zeta. change (x :: ds ++ c :: r) with ((x :: ds) ++ c :: r). pose proof (take_hex (x :: ds) (c :: r) Hd Hc) as T. change (16 =? 16) with true. cbv beta iota zeta. rewrite T. reflexivity.
Qed.
Lemma hexv_bound : forall ds, Forall hexd ds -> 0 <= hexv ds < 16 ^ Z.of_nat (length ds).
Proof.
  intros ds H. unfold hexv, numeral_value.
  assert (G : forall v, 0 <= v -> 0 <= fold_left (fun v c => v * 16 + digit_value c) ds v < (v + 1) * 16 ^ Z.of_nat (length ds)).
  { induction H as [|c ds Hc Hds IH]; intros v Hv; cbn [fold_left length].
    - cbn. lia.
    - pose proof (digit_value_nonneg c). rewrite hexd_value in Hc. specialize (IH (v * 16 + digit_value c) ltac:(lia)).
      replace (Z.of_nat (S (length ds))) with (Z.of_nat (length ds) + 1) by lia. rewrite Z.pow_add_r by lia. change (16 ^ 1) with 16.
      assert (0 < 16 ^ Z.of_nat (length ds)) by (apply Z.pow_pos_nonneg; lia). nia. }
  specialize (G 0 ltac:(lia)). lia.
Qed.
Lemma field_group : forall n max ds c r, group n ds -> (0 < n)%nat -> 16 ^ Z.of_nat n - 1 <= max -> max < 2 ^ 64 -> ~ hexd c -> c <> 120 -> c <> 88 -> white c = false ->
  t_field max (ds ++ c :: r) = Some (hexv ds, c :: r).
Proof.
  intros n max ds c r [L H] Hn Hm Hm2 Hc C1 C2 Wc. unfold t_field.
  assert (E : drop_while white (ds ++ c :: r) = ds ++ c :: r).
  { destruct ds as [|x ds]; cbn [app]; [apply drop_none; auto|]. inversion H; subst. destruct (hexd_not x) as (W & _); auto. apply drop_none. auto. }
  rewrite E. rewrite read_group; auto; [|destruct ds; [cbn in L; lia|discriminate]]. pose proof (hexv_bound ds H) as B. rewrite L in B.
  unfold reading. cbn [negative digits_of consumed]. unfold loose_value. replace (Z.min (2 ^ 64 - 1) (hexv ds)) with (hexv ds) by lia.
  replace (max <? hexv ds) with false by lia. rewrite skipn_app, skipn_all2 by lia. replace (length ds - length ds)%nat with O by lia. cbn [app skipn].
  destruct (drop_none c r Wc) as [-> _]. reflexivity.
Qed.
Lemma uuid_bytes_of : forall a b c d e, uuid_bytes a b c d e = uuid_of a b c d e.
Proof.
  intros. unfold uuid_bytes, uuid_of. cbn [le_bytes be_bytes rev app].
  rewrite !Z.shiftr_div_pow2 by lia. change 255 with (Z.ones 8). rewrite !Z.land_ones by lia. change (2 ^ 8) with 256.
  rewrite !Z.div_div by lia. reflexivity.
Qed.

Lemma t_ex : forall c r, t_expect c (c :: r) = Some r.
Proof. intros. unfold t_expect. rewrite Z.eqb_refl. reflexivity. Qed.

(** ** C62 *)
(** Every text of the documented form is accepted, in any case, with whatever follows: the number of
    units may be exact, or there may be a terminator. *)
Theorem strtouuid_documented : forall t g1 g2 g3 g4 g5 rest count, documented t g1 g2 g3 g4 g5 ->
  count = length t \/ ((length t < count)%nat /\ exists j, rest = 0 :: j) ->
  strtouuid (t ++ rest) count = Ret (Some (uuid_of (hexv g1) (hexv g2) (hexv g3) (hexv g4) (hexv g5))).
Proof.
  intros t g1 g2 g3 g4 g5 rest count (H1 & H2 & H3 & H4 & H5 & E) HC.
  assert (N : nz t).
  { assert (G : forall n g, group n g -> nz g) by (intros n g [_ F]; eapply Forall_impl; [|exact F]; intros x Hx; destruct (hexd_not x Hx); lia).
    rewrite E. repeat (apply Forall_app; split); eauto; repeat constructor; discriminate. }
  assert (HJ : (count - length t)%nat = O \/ exists j, rest = 0 :: j) by (destruct HC as [->|[_ X]]; [left; lia|right; exact X]).
  pose proof (strtouuid_lenient rest (count - length t) HJ t N) as R.
  replace (length t + (count - length t))%nat with count in R by (destruct HC as [->|[? _]]; lia).
  enough (EL : lenient t = LSome (uuid_of (hexv g1) (hexv g2) (hexv g3) (hexv g4) (hexv g5))) by (rewrite EL in R; exact R).
  rewrite E. cbn [app]. unfold lenient. destruct (drop_none 123 (g1 ++ 45 :: g2 ++ 45 :: g3 ++ 45 :: g4 ++ 45 :: g5 ++ [125]) eq_refl) as [-> _]. 
  assert (N45 : ~ hexd 45) by (unfold hexd; lia). assert (N125 : ~ hexd 125) by (unfold hexd; lia).
  cbn [lb]. rewrite t_ex. cbn [lb]. rewrite (field_group 8) by (try assumption; try discriminate; try reflexivity; vm_compute; try discriminate; lia).
  cbn [lb]. rewrite t_ex. cbn [lb]. rewrite (field_group 4) by (try assumption; try discriminate; try reflexivity; vm_compute; try discriminate; lia).
  cbn [lb]. rewrite t_ex. cbn [lb]. rewrite (field_group 4) by (try assumption; try discriminate; try reflexivity; vm_compute; try discriminate; lia).
  cbn [lb]. rewrite t_ex. cbn [lb]. rewrite (field_group 4) by (try assumption; try discriminate; try reflexivity; vm_compute; try discriminate; lia).
  cbn [lb]. rewrite (field_group 12) by (try assumption; try discriminate; try reflexivity; vm_compute; try discriminate; lia).
  cbn [lb]. rewrite t_ex. cbn [lb drop_while]. rewrite uuid_bytes_of. reflexivity.
Qed.

(** *** Formatting *)
Lemma hex_char_ok : forall d, 0 <= d < 16 -> hexd (hex_char d) /\ digit_value (hex_char d) = d.
Proof. intros d H. unfold hex_char, hexd, digit_value. destruct (d <? 10) eqn:E.
  - replace ((48 <=? 48 + d) && (48 + d <=? 57)) with true by lia. lia.
  - replace ((48 <=? 55 + d) && (55 + d <=? 57)) with false by lia. replace ((65 <=? 55 + d) && (55 + d <=? 90)) with true by lia. lia.
Qed.
Lemma hexv_snoc : forall ds c, hexv (ds ++ [c]) = hexv ds * 16 + digit_value c.
Proof. intros. unfold hexv, numeral_value. rewrite fold_left_app. reflexivity. Qed.
Lemma hex_digits_ok : forall n v, 0 <= v < 16 ^ Z.of_nat n -> group n (hex_digits n v) /\ hexv (hex_digits n v) = v.
Proof.
  induction n; intros v Hv.
  - cbn in *. split; [split; auto; constructor|]. change (hexv []) with 0. lia.
  - replace (Z.of_nat (S n)) with (Z.of_nat n + 1) in Hv by lia. rewrite Z.pow_add_r in Hv by lia. change (16 ^ 1) with 16 in Hv.
    destruct (IHn (v / 16) ltac:(lia)) as [[L F] V]. destruct (hex_char_ok (v mod 16) ltac:(lia)) as [C1 C2]. cbn [hex_digits].
    split; [split; [rewrite app_length, L; cbn; lia|apply Forall_app; split; auto]|]. rewrite hexv_snoc, V, C2. lia.
Qed.
Lemma hex_width_le : forall k n v, 0 <= v < 16 ^ Z.of_nat n -> (hex_width k v <= n)%nat.
Proof.
  induction k; intros n v H; cbn [hex_width]; [lia|]. destruct (v =? 0) eqn:E; [lia|]. destruct n as [|n]; [cbn in H; lia|].
  replace (Z.of_nat (S n)) with (Z.of_nat n + 1) in H by lia. rewrite Z.pow_add_r in H by lia. change (16 ^ 1) with 16 in H.
  specialize (IHk n (v / 16) ltac:(lia)). lia.
Qed.
Lemma fmt_ok : forall n v, 0 <= v < 16 ^ Z.of_nat n -> fmt_hex n v = hex_digits n v.
Proof. intros n v H. unfold fmt_hex. pose proof (hex_width_le 8 n v H). rewrite Nat.max_l by lia. reflexivity. Qed.
Lemma group_app : forall a b x y, group a x -> group b y -> group (a + b) (x ++ y).
Proof. intros a b x y [A1 A2] [B1 B2]. split; [rewrite app_length; lia|apply Forall_app; auto]. Qed.
Lemma hexv_app : forall x y, Forall hexd x -> Forall hexd y -> hexv (x ++ y) = hexv x * 16 ^ Z.of_nat (length y) + hexv y.
Proof.
  intros x y Hx Hy. revert Hy. induction y as [|c y IH] using rev_ind; intros Hy.
  - rewrite app_nil_r. change (hexv []) with 0. cbn. lia.
  - apply Forall_app in Hy. destruct Hy as [Hy _]. rewrite app_assoc, !hexv_snoc, IH by auto. rewrite app_length. cbn [length].
    replace (Z.of_nat (length y + 1)) with (Z.of_nat (length y) + 1) by lia. rewrite Z.pow_add_r by lia. change (16 ^ 1) with 16. lia.
Qed.
(** The text of a uuid is the documented form of its numbers, with its terminator. *)
Theorem uuidtostr_documented : forall id, is_uuid id ->
  exists t g1 g2 g3 g4 g5, uuidtostr id = Ret (t ++ [0]) /\ documented t g1 g2 g3 g4 g5 /\
    uuid_of (hexv g1) (hexv g2) (hexv g3) (hexv g4) (hexv g5) = id.
Proof.
  intros id [L F].
  do 16 (destruct id as [|? id]; [discriminate L|]). destruct id; [|discriminate L]. clear L.
  repeat match goal with H : Forall _ (_ :: _) |- _ => apply Forall_cons_iff in H; destruct H as [? H] end. clear F.
  unfold uuidtostr, uuid_args, uuid_format. cbn [firstn skipn le_value app format obind].
  set (A := z + 256 * (z0 + 256 * (z1 + 256 * (z2 + 256 * 0)))). set (B := z3 + 256 * (z4 + 256 * 0)). set (C := z5 + 256 * (z6 + 256 * 0)).
  assert (HA : 0 <= A < 16 ^ Z.of_nat 8) by (change (16 ^ Z.of_nat 8) with 4294967296; lia).
  assert (HB : 0 <= B < 16 ^ Z.of_nat 4) by (change (16 ^ Z.of_nat 4) with 65536; lia).
  assert (HC : 0 <= C < 16 ^ Z.of_nat 4) by (change (16 ^ Z.of_nat 4) with 65536; lia).
  assert (EA : u32 A = A) by (apply Z.mod_small; change (16 ^ Z.of_nat 8) with 4294967296 in HA; exact HA).
  assert (EB : u32 B = B) by (apply Z.mod_small; change (16 ^ Z.of_nat 4) with 65536 in HB; lia).
  assert (EC : u32 C = C) by (apply Z.mod_small; change (16 ^ Z.of_nat 4) with 65536 in HC; lia).
  rewrite EA, EB, EC, (fmt_ok 8 A HA), (fmt_ok 4 B HB), (fmt_ok 4 C HC).
  assert (P : forall b, 0 <= b < 256 -> fmt_hex 2 (u32 b) = hex_digits 2 b /\ group 2 (hex_digits 2 b) /\ hexv (hex_digits 2 b) = b).
  { intros b Hb. assert (u32 b = b) as -> by (apply Z.mod_small; lia). rewrite fmt_ok by (cbn; lia). split; auto. apply hex_digits_ok. cbn. lia. }
  destruct (P z7) as (-> & G7 & V7); [auto|]. destruct (P z8) as (-> & G8 & V8); [auto|]. destruct (P z9) as (-> & G9 & V9); [auto|].
  destruct (P z10) as (-> & G10 & V10); [auto|]. destruct (P z11) as (-> & G11 & V11); [auto|]. destruct (P z12) as (-> & G12 & V12); [auto|].
  destruct (P z13) as (-> & G13 & V13); [auto|]. destruct (P z14) as (-> & G14 & V14); [auto|]. clear P.
  destruct (hex_digits_ok 8 A HA) as [GA VA]. destruct (hex_digits_ok 4 B HB) as [GB VB]. destruct (hex_digits_ok 4 C HC) as [GC VC].
  revert G7 V7 G8 V8 G9 V9 G10 V10 G11 V11 G12 V12 G13 V13 G14 V14 GA VA GB VB GC VC.
  generalize (hex_digits 2 z7), (hex_digits 2 z8), (hex_digits 2 z9), (hex_digits 2 z10), (hex_digits 2 z11), (hex_digits 2 z12), (hex_digits 2 z13), (hex_digits 2 z14),
    (hex_digits 8 A), (hex_digits 4 B), (hex_digits 4 C).
  intros x7 x8 x9 x10 x11 x12 x13 x14 xA xB xC G7 V7 G8 V8 G9 V9 G10 V10 G11 V11 G12 V12 G13 V13 G14 V14 GA VA GB VB GC VC.
  assert (D : documented ([123] ++ xA ++ [45] ++ xB ++ [45] ++ xC ++ [45] ++ (x7 ++ x8) ++ [45] ++ (x9 ++ x10 ++ x11 ++ x12 ++ x13 ++ x14) ++ [125]) xA xB xC (x7 ++ x8) (x9 ++ x10 ++ x11 ++ x12 ++ x13 ++ x14)).
  { unfold documented. split; [exact GA|]. split; [exact GB|]. split; [exact GC|]. split; [exact (group_app 2 2 _ _ G7 G8)|].
    split; [|reflexivity]. exact (group_app 2 10 _ _ G9 (group_app 2 8 _ _ G10 (group_app 2 6 _ _ G11 (group_app 2 4 _ _ G12 (group_app 2 2 _ _ G13 G14))))). }
  do 6 eexists. split; [|split; [exact D|]].
  - unfold truncated. rewrite firstn_all2; [cbn [app]; rewrite <- ?app_assoc; cbn [app]; rewrite <- ?app_assoc; reflexivity|].
    destruct GA as [GA _], GB as [GB _], GC as [GC _], G7 as [G7 _], G8 as [G8 _], G9 as [G9 _], G10 as [G10 _], G11 as [G11 _], G12 as [G12 _], G13 as [G13 _], G14 as [G14 _].
    cbn [length app]. repeat (rewrite app_length; cbn [length]). lia.
  - destruct GA as [LA FA], GB as [LB FB], GC as [LC FC], G7 as [L7 F7], G8 as [L8 F8], G9 as [L9 F9], G10 as [L10 F10], G11 as [L11 F11], G12 as [L12 F12], G13 as [L13 F13], G14 as [L14 F14].
    rewrite !hexv_app by (repeat (apply Forall_app; split); assumption). rewrite VA, VB, VC, V7, V8, V9, V10, V11, V12, V13, V14.
    rewrite ?app_length, ?L7, ?L8, ?L9, ?L10, ?L11, ?L12, ?L13, ?L14. cbn [Nat.add]. change (16 ^ Z.of_nat 2) with 256.
    change (16 ^ Z.of_nat 4) with 65536. change (16 ^ Z.of_nat 6) with 16777216. change (16 ^ Z.of_nat 8) with 4294967296. change (16 ^ Z.of_nat 10) with 1099511627776.
    unfold uuid_of. cbn [be_bytes rev app]. subst A B C. clear - H H0 H1 H2 H3 H4 H5 H6 H7 H8 H9 H10 H11 H12 H13 H14.
    repeat (f_equal; [lia|]). f_equal. lia.
Qed.
(** Writing a uuid and reading it back gives the same uuid, for all 2^128 of them. *)
Theorem uuid_round_trip : forall id, is_uuid id ->
  exists t, uuidtostr id = Ret (t ++ [0]) /\ length t = 38%nat /\
    forall count, (38 <= count)%nat -> strtouuid (t ++ [0]) count = Ret (Some id).
Proof.
  intros id H. destruct (uuidtostr_documented id H) as (t & g1 & g2 & g3 & g4 & g5 & E & D & V). exists t. split; [auto|].
  assert (L : length t = 38%nat).
  { destruct D as ((L1 & _) & (L2 & _) & (L3 & _) & (L4 & _) & (L5 & _) & ->). repeat (rewrite app_length; cbn [length]). lia. }
  split; [auto|]. intros count Hc. rewrite (strtouuid_documented t g1 g2 g3 g4 g5 [0] count D); [rewrite V; reflexivity|].
  destruct (Nat.eq_dec count (length t)); [left; auto|right; split; [lia|eauto]].
Qed.
Example uuid_ex : uuidtostr [1;2;3;4;5;6;7;8;9;10;11;12;13;14;15;255] =
  Ret ([123; 48;52;48;51;48;50;48;49; 45; 48;54;48;53; 45; 48;56;48;55; 45; 48;57;48;65; 45; 48;66;48;67;48;68;48;69;48;70;70;70; 125] ++ [0]).
Proof. vm_compute. reflexivity. Qed.

(** *** What is accepted *)
Lemma take_drop : forall p t, t = take_while p t ++ drop_while p t /\ Forall (fun c => p c = true) (take_while p t).
Proof. induction t as [|c t [E F]]; cbn; [auto|]. destruct (p c) eqn:P; cbn; [split; [congruence|auto]|auto]. Qed.
Lemma read_shape : forall t, exists w n rest neg ds, t = w ++ n ++ rest /\ all_white w /\ loose_number n neg ds /\
  negative (read_numeral 16 t) = neg /\ digits_of (read_numeral 16 t) = ds /\ consumed (read_numeral 16 t) = length (w ++ n).
Proof.
  intros t. destruct (take_drop white t) as [E F]. exists (take_while white t). unfold read_numeral. set (w := take_while white t) in *. set (t1 := drop_while white t) in *.
  clearbody w t1. subst t. 
  assert (A : forall neg sign t2, t1 = sign ++ t2 -> (neg = false /\ (sign = [] \/ sign = [43]) \/ neg = true /\ sign = [45]) ->
    let q := (let '(rx, p, t3) := match t2 with z :: x :: r => if ((z =? 48) && ((x =? 120) || (x =? 88)))%Z then (16%Z, 2%nat, r) else (16%Z, 0%nat, t2) | _ => (16%Z, 0%nat, t2) end in
     let ds := take_while (fun c => (digit_value c <? rx)%Z) t3 in Numeral neg rx ds (length w + length sign + p + length ds)) in
    exists n rest neg ds, w ++ t1 = w ++ n ++ rest /\ all_white w /\ loose_number n neg ds /\ negative q = neg /\ digits_of q = ds /\ consumed q = length (w ++ n)).
  { intros neg sign t2 E S. subst t1.
    assert (B : forall prefix t3, t2 = prefix ++ t3 -> prefix = [] \/ prefix = [48; 120] \/ prefix = [48; 88] ->
      let q := Numeral neg 16 (take_while (fun c => digit_value c <? 16) t3) (length w + length sign + length prefix + length (take_while (fun c => digit_value c <? 16) t3)) in
      exists n rest neg ds, w ++ sign ++ t2 = w ++ n ++ rest /\ all_white w /\ loose_number n neg ds /\ negative q = neg /\ digits_of q = ds /\ consumed q = length (w ++ n)).
    { intros prefix t3 E P. subst t2. destruct (take_drop (fun c => digit_value c <? 16) t3) as [E3 F3].
      exists (sign ++ prefix ++ take_while (fun c => digit_value c <? 16) t3), (drop_while (fun c => digit_value c <? 16) t3). do 2 eexists.
      split; [rewrite <- !app_assoc; rewrite <- E3; reflexivity|]. split; [exact F|]. split; [|split; [reflexivity|split; [reflexivity|]]].
      - exists sign, prefix. split; [reflexivity|]. split; [|auto]. eapply Forall_impl; [|exact F3]. intros c Hc. apply hexd_value. cbv beta in Hc. lia.
      - cbn [consumed]. rewrite !app_length. lia. }
    intros q. subst q. destruct t2 as [|z [|x r]]; try exact (B [] _ eq_refl (or_introl eq_refl)).
    destruct ((z =? 48) && ((x =? 120) || (x =? 88))) eqn:E.
    - apply (B [z; x] r eq_refl). right. assert (z = 48) by lia. assert (x = 120 \/ x = 88) as [-> | ->] by lia; subst; auto.
    - exact (B [] _ eq_refl (or_introl eq_refl)). }
  change (16 =? 16) with true. cbv beta iota. destruct t1 as [|c r]; [exact (A false [] [] eq_refl (or_introl (conj eq_refl (or_introl eq_refl))))|].
  destruct (c =? 43) eqn:C1; [assert (c = 43) as -> by lia; exact (A false [43] r eq_refl (or_introl (conj eq_refl (or_intror eq_refl))))|].
  destruct (c =? 45) eqn:C2; [assert (c = 45) as -> by lia; exact (A true [45] r eq_refl (or_intror (conj eq_refl eq_refl)))|].
  exact (A false [] (c :: r) eq_refl (or_introl (conj eq_refl (or_introl eq_refl)))).
Qed.
Lemma t_field_shape : forall m t v r, t_field m t = Some (v, r) -> exists f, t = f ++ r /\ loose_field f v /\ v <= m.
Proof.
  intros m t v r E. unfold t_field in E. destruct (m <? _) eqn:M in E; [discriminate|]. injection E as E1 E2.
  destruct (take_drop white t) as [T0 F0]. set (w0 := take_while white t) in *. set (t1 := drop_while white t) in *. clearbody w0 t1.
  destruct (read_shape t1) as (w & n & rest & neg & ds & S1 & S2 & S3 & S4 & S5 & S6). rewrite S6 in E2. subst t t1. rewrite app_assoc, skipn_app, skipn_all2 in E2 by lia.
  replace (length (w ++ n) - length (w ++ n))%nat with O in E2 by lia. cbn [app skipn] in E2.
  destruct (take_drop white rest) as [T2 F2]. rewrite E2 in T2. exists (w0 ++ w ++ n ++ take_while white rest). split; [rewrite <- !app_assoc; f_equal; f_equal; f_equal; auto|].
  split; [|unfold reading in *; lia]. exists (w0 ++ w), n, (take_while white rest), neg, ds. split; [rewrite <- !app_assoc; reflexivity|].
  split; [apply Forall_app; auto|]. split; [auto|]. split; [auto|]. unfold reading in E1. rewrite S4, S5 in E1. auto.
Qed.
(** Whatever is accepted consists of five numbers in range between braces, with dashes between the
    first four and some unit before the last; and the result is made of those numbers. *)
Theorem strtouuid_accepts_partial : forall t rest id, Forall (fun c => c <> 0) t -> 
  strtouuid (t ++ 0 :: rest) (length t) = Ret (Some id) ->
  exists w1 w2 f1 f2 f3 f4 c f5 v1 v2 v3 v4 v5,
    t = w1 ++ [123] ++ f1 ++ [45] ++ f2 ++ [45] ++ f3 ++ [45] ++ f4 ++ [c] ++ f5 ++ [125] ++ w2 /\
    all_white w1 /\ all_white w2 /\
    loose_field f1 v1 /\ loose_field f2 v2 /\ loose_field f3 v3 /\ loose_field f4 v4 /\ loose_field f5 v5 /\
    v1 < 2 ^ 32 /\ v2 < 2 ^ 16 /\ v3 < 2 ^ 16 /\ v4 < 2 ^ 16 /\ v5 < 2 ^ 48 /\
    id = uuid_of v1 v2 v3 v4 v5.
Proof.
  intros t rest id N H. pose proof (strtouuid_lenient (0 :: rest) 0 (or_introl eq_refl) t N) as R. rewrite Nat.add_0_r in R. rewrite H in R.
  destruct (lenient t) as [|id'|] eqn:E; cbn [rel] in R; [discriminate| |destruct R as [g R]; cbn in R; discriminate]. injection R as <-.
  unfold lenient in E. destruct (take_drop white t) as [T0 F0]. set (w1 := take_while white t) in *. set (t0 := drop_while white t) in *. clearbody w1 t0.
  assert (X : forall c t f, lb (t_expect c t) f = LSome id -> exists r, t = [c] ++ r /\ f r = LSome id).
  { intros c [|x u] f Hx; cbn in Hx; [discriminate|]. destruct (x =? c) eqn:Ex; [|discriminate]. exists u. split; [cbn; f_equal; lia|exact Hx]. }
  assert (Y : forall m t f, lb (t_field m t) f = LSome id -> exists v r g, t = g ++ r /\ loose_field g v /\ v <= m /\ f (v, r) = LSome id).
  { intros m u f Hx. destruct (t_field m u) as [[v r]|] eqn:Ef; [|discriminate]. destruct (t_field_shape m u v r Ef) as (g & G1 & G2 & G3). exists v, r, g. auto. }
  destruct (X _ _ _ E) as (t1 & E1 & E'); clear E. destruct (Y _ _ _ E') as (v1 & t2 & f1 & E2 & L1 & B1 & E); clear E'.
  destruct (X _ _ _ E) as (t3 & E3 & E'); clear E. destruct (Y _ _ _ E') as (v2 & t4 & f2 & E4 & L2 & B2 & E); clear E'.
  destruct (X _ _ _ E) as (t5 & E5 & E'); clear E. destruct (Y _ _ _ E') as (v3 & t6 & f3 & E6 & L3 & B3 & E); clear E'.
  destruct (X _ _ _ E) as (t7 & E7 & E'); clear E. destruct (Y _ _ _ E') as (v4 & t8 & f4 & E8 & L4 & B4 & E); clear E'.
  destruct t8 as [|c t9]; [discriminate|]. destruct (Y _ _ _ E) as (v5 & t10 & f5 & E10 & L5 & B5 & E'); clear E.
  destruct (X _ _ _ E') as (t11 & E11 & E); clear E'. destruct (take_drop white t11) as [T2 F2].
  destruct (drop_while white t11); [|discriminate]. injection E as E. rewrite app_nil_r in T2. 
  exists w1, t11, f1, f2, f3, f4, c, f5, v1, v2, v3, v4, v5. split; [subst; reflexivity|]. split; [exact F0|]. split; [rewrite T2; exact F2|].
  do 5 (split; [assumption|]). do 5 (split; [lia|]). rewrite <- uuid_bytes_of. auto.
Qed.

(** Texts that are not of the documented form are not all refused: a group may be short, have a sign
    or be missing, and the last separator may be any character (line 149 has && for ||). *)
Theorem strtouuid_rejects_refuted : 
  let t := [123; 49; 45; 50; 45; 51; 45; 52; 42; 45; 70;70;70;70;70;70;70;70;70;70;70;70;70;70;70;70; 125] in
  ~ (exists g1 g2 g3 g4 g5, documented t g1 g2 g3 g4 g5) /\
  strtouuid (t ++ [0]) (length t) = Ret (Some (uuid_of 1 2 3 4 0)).
Proof.
  split; [|vm_compute; reflexivity]. intros (g1 & g2 & g3 & g4 & g5 & (L1 & _) & (L2 & _) & (L3 & _) & (L4 & _) & (L5 & _) & E).
  apply (f_equal (@length Z)) in E. revert E. repeat (rewrite app_length; cbn [length app]). lia.
Qed.

(** Reading stays inside the buffer when a terminator stands at [count] (a std::string). *)
Theorem strtouuid_safe_partial : forall t rest, Forall (fun c => c <> 0) t -> strtouuid (t ++ 0 :: rest) (length t) <> UB.
Proof.
  intros t rest N H. pose proof (strtouuid_lenient (0 :: rest) 0 (or_introl eq_refl) t N) as R. rewrite Nat.add_0_r in R. rewrite H in R.
  destruct (lenient t) as [|id'|]; cbn [rel] in R; [discriminate|discriminate|destruct R as [g R]; cbn in R; discriminate].
Qed.
(** It does not with exactly [count] readable units, nor past a terminator before [count]. *)
Theorem strtouuid_safe_refuted :
  let t := [123; 49; 45; 50; 45; 51; 45; 52] in
  (readable (length t) t /\ strtouuid t (length t) = UB) /\
  (readable 100 (t ++ [0]) /\ strtouuid (t ++ [0]) 100 = UB).
Proof. split; (split; [|vm_compute; reflexivity]); [left; auto|right; cbn; auto 20]. Qed.

(** The wide-character version prints another uuid: its first group is always 0 (line 72 passes NULL
    before the arguments). *)
Theorem uuidtostr_wide_refuted : exists id t, is_uuid id /\ uuidtostr_wide id = Ret t /\ uuidtostr id <> Ret t /\
  exists id', strtouuid t 39 = Ret (Some id') /\ id' <> id.
Proof.
  exists [1;0;0;0; 2;0; 3;0; 4;5; 6;7;8;9;10;11]. eexists. split; [split; [reflexivity|repeat constructor; lia]|]. split; [vm_compute; reflexivity|].
  split; [vm_compute; discriminate|]. eexists. split; [vm_compute; reflexivity|]. discriminate.
Qed.
Print Assumptions strtouuid_documented.
Print Assumptions uuid_round_trip.
Print Assumptions strtouuid_accepts_partial.
Print Assumptions uuidtostr_wide_refuted.
