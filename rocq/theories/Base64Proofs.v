From Verif Require Import Base Bits Base64Model Base64Spec.
From Coq Require Import ZifyBool ZifyNat.
Ltac Zify.zify_post_hook ::= Z.div_mod_to_equations.

Lemma enc_at_digit : forall v, 0 <= v < 64 -> enc_at v = digit v.
Proof.
  intros v Hv. apply Z.eqb_eq.
  exact (all_below_spec (fun v => enc_at v =? digit v) 64 ltac:(vm_compute; reflexivity) v Hv).
Qed.
Lemma dec_enc_at : forall v, 0 <= v < 64 -> dec_at (digit v) = v.
Proof.
  intros v Hv. apply Z.eqb_eq.
  exact (all_below_spec (fun v => dec_at (digit v) =? v) 64 ltac:(vm_compute; reflexivity) v Hv).
Qed.
Lemma dec_at_skip : forall x, (dec_at x =? 255) = negb (is_b64 x).
Proof.
  intros x. destruct ((0 <=? x) && (x <? 256)) eqn:E.
  - apply eqb_prop.
    exact (all_below_spec (fun x => eqb (dec_at x =? 255) (negb (is_b64 x))) 256 ltac:(vm_compute; reflexivity) x ltac:(lia)).
  - unfold dec_at. rewrite E. unfold is_b64, between. lia.
Qed.
Lemma digit_b64 : forall v, 0 <= v < 64 -> is_b64 (digit v) = true.
Proof.
  intros v Hv. exact (all_below_spec (fun v => is_b64 (digit v)) 64 ltac:(vm_compute; reflexivity) v Hv).
Qed.

(** bit fields *)
Lemma f1 : forall a b, byte a -> byte b -> Z.land (Z.lor (Z.shiftl a 4) (Z.shiftr b 4)) 63 = (a * 16 + b / 16) mod 64.
Proof.
  unfold byte. intros a b Ha Hb. change 63 with (2 ^ 6 - 1). rewrite land_ones_mod by lia.
  rewrite Z.shiftr_div_pow2 by lia. rewrite shiftl_lor_add by (change (2^4) with 16; lia). reflexivity.
Qed.
Lemma f2 : forall a b, byte a -> byte b -> Z.land (Z.lor (Z.shiftl a 2) (Z.shiftr b 6)) 63 = (a * 4 + b / 64) mod 64.
Proof.
  unfold byte. intros a b Ha Hb. change 63 with (2 ^ 6 - 1). rewrite land_ones_mod by lia.
  rewrite Z.shiftr_div_pow2 by lia. rewrite shiftl_lor_add by (change (2^6) with 64; change (2^2) with 4; lia). reflexivity.
Qed.
Lemma f3 : forall b, Z.land b 63 = b mod 64.
Proof. intros. change 63 with (2 ^ 6 - 1). rewrite land_ones_mod by lia. reflexivity. Qed.
Lemma f4 : forall b, Z.shiftl b 4 = b * 16.
Proof. intros. rewrite Z.shiftl_mul_pow2 by lia. reflexivity. Qed.
Lemma f5 : forall b, Z.shiftl b 2 = b * 4.
Proof. intros. rewrite Z.shiftl_mul_pow2 by lia. reflexivity. Qed.
Lemma f6 : forall b, Z.shiftr b 2 = b / 4.
Proof. intros. rewrite Z.shiftr_div_pow2 by lia. reflexivity. Qed.

Definition quad (a b c : Z) : list Z :=
  let n := group24 a b c in [digit (sextet n 0); digit (sextet n 1); digit (sextet n 2); digit (sextet n 3)].

Lemma sx0 : forall a b c, byte a -> byte b -> byte c -> sextet (group24 a b c) 0 = a / 4.
Proof. unfold byte, sextet, group24. intros. change (64 ^ (3 - 0)) with 262144. lia. Qed.
Lemma sx1 : forall a b c, byte a -> byte b -> byte c -> sextet (group24 a b c) 1 = (a * 16 + b / 16) mod 64.
Proof. unfold byte, sextet, group24. intros. change (64 ^ (3 - 1)) with 4096. lia. Qed.
Lemma sx2 : forall a b c, byte a -> byte b -> byte c -> sextet (group24 a b c) 2 = (b * 4 + c / 64) mod 64.
Proof. unfold byte, sextet, group24. intros. change (64 ^ (3 - 2)) with 64. lia. Qed.
Lemma sx3 : forall a b c, byte a -> byte b -> byte c -> sextet (group24 a b c) 3 = c mod 64.
Proof. unfold byte, sextet, group24. intros. change (64 ^ (3 - 3)) with 1. lia. Qed.

Lemma enc_block_quad : forall s, byte (e0 s) -> byte (e1 s) -> byte (e2 s) -> enc_block s = quad (e0 s) (e1 s) (e2 s).
Proof.
  intros s H0 H1 H2. unfold enc_block, quad. rewrite sx0, sx1, sx2, sx3 by auto.
  rewrite f1, f2, f3, f6 by auto. unfold byte in *.
  rewrite !enc_at_digit by lia. reflexivity.
Qed.

Definition pending (s : enc) : list Z := firstn (Z.to_nat (enum s)) [e0 s; e1 s; e2 s].
Definition ewf (s : enc) : Prop := 0 <= enum s <= 3 /\ bytes (pending s).

Lemma enum_cases : forall s, ewf s -> enum s = 0 \/ enum s = 1 \/ enum s = 2 \/ enum s = 3.
Proof. intros s [H _]. lia. Qed.

Lemma byte0 : byte 0. Proof. unfold byte; lia. Qed.

Ltac binv := repeat match goal with H : bytes (_ :: _) |- _ => inversion H; clear H; subst | H : Forall _ (_ :: _) |- _ => inversion H; clear H; subst end.

Lemma enc_flush_rfc : forall s, ewf s -> 0 < enum s < 3 -> enc_flush s (enum s) = rfc4648 (pending s).
Proof.
  intros s Hw Hn. destruct Hw as [_ Hb]. unfold enc_flush, pending in *.
  assert (E : enum s = 1 \/ enum s = 2) by lia. destruct E as [E|E]; rewrite E in *.
  - change (firstn (Z.to_nat 1) [e0 s; e1 s; e2 s]) with [e0 s] in *. binv. cbn [Z.gtb Z.compare Pos.compare Pos.compare_cont rfc4648].
    rewrite sx0, sx1 by auto using byte0. rewrite f4, f6, f3. unfold byte in *. rewrite !enc_at_digit by lia.
    replace ((e0 s * 16 + 0 / 16) mod 64) with (e0 s * 16 mod 64) by lia. reflexivity.
  - change (firstn (Z.to_nat 2) [e0 s; e1 s; e2 s]) with [e0 s; e1 s] in *. binv. cbn [Z.gtb Z.compare Pos.compare Pos.compare_cont rfc4648].
    rewrite sx0, sx1, sx2 by auto using byte0. rewrite f1 by auto. rewrite f5, f6, f3. unfold byte in *. rewrite !enc_at_digit by lia.
    replace ((e1 s * 4 + 0 / 64) mod 64) with (e1 s * 4 mod 64) by lia. reflexivity.
Qed.

(** Lists whose length is a multiple of three. *)
Inductive full3 : list Z -> Prop :=
| full3_nil : full3 []
| full3_cons : forall a b c r, full3 r -> full3 (a :: b :: c :: r).
Lemma full3_app : forall a b, full3 a -> full3 b -> full3 (a ++ b).
Proof. induction 1; intros; cbn; auto. constructor; auto. Qed.
Lemma rfc_app : forall a b, full3 a -> rfc4648 (a ++ b) = rfc4648 a ++ rfc4648 b.
Proof. induction 1; cbn [app rfc4648]; auto. rewrite IHfull3. reflexivity. Qed.
Lemma full3_length : forall a, full3 a -> (length a mod 3 = 0)%nat.
Proof. induction 1; cbn [length]; lia. Qed.
Lemma full3_of_length : forall n a, (length a <= n)%nat -> (length a mod 3 = 0)%nat -> full3 a.
Proof.
  induction n as [|n IH]; intros a Hn Hm.
  - destruct a; [constructor|cbn in Hn; lia].
  - destruct a as [|x [|y [|z r]]]; cbn [length] in *; try constructor; try (exfalso; cbn in Hm; discriminate Hm). apply IH; lia.
Qed.
Lemma rfc_length_full : forall a, full3 a -> Z.of_nat (length (rfc4648 a)) * 3 = Z.of_nat (length a) * 4.
Proof. induction 1; cbn [length app rfc4648]; lia. Qed.

Lemma pending_put : forall s x, ewf s -> enum s < 3 -> pending (enc_put s x) = pending s ++ [x].
Proof.
  intros s x Hw Hn. unfold pending, enc_put.
  destruct (enum_cases s Hw) as [E|[E|[E|E]]]; rewrite E; try lia; reflexivity.
Qed.
Lemma ewf_put : forall s x, ewf s -> enum s < 3 -> byte x -> ewf (enc_put s x).
Proof.
  intros s x Hw Hn Hx. split.
  - unfold enc_put. destruct (enum_cases s Hw) as [E|[E|[E|E]]]; rewrite E; dif; cbn; lia.
  - rewrite pending_put by auto. apply Forall_app. split; [apply Hw|]. constructor; auto.
Qed.
Lemma ewf_clear : forall s, ewf (enc_clear s).
Proof. intros. split; cbn; [lia|]. constructor. Qed.

Definition spill (s : enc) (out : list Z) : enc * list Z :=
  if enum s >=? 3 then (enc_clear s, out ++ enc_block s) else (s, out).

Lemma spill_spec : forall s out, ewf s -> exists d, pending s = d ++ pending (fst (spill s out)) /\ full3 d /\
  snd (spill s out) = out ++ rfc4648 d /\ ewf (fst (spill s out)) /\ enum (fst (spill s out)) < 3.
Proof.
  intros s out Hw. unfold spill. destruct (enum s >=? 3) eqn:E.
  - assert (E3 : enum s = 3) by (destruct Hw; lia). exists [e0 s; e1 s; e2 s].
    assert (Hp : pending s = [e0 s; e1 s; e2 s]) by (unfold pending; rewrite E3; reflexivity).
    cbn [fst snd]. repeat split; auto using ewf_clear; try (cbn; lia).
    + repeat constructor.
    + f_equal. destruct Hw as [_ Hb]. rewrite Hp in Hb. binv. rewrite enc_block_quad by auto. cbn [rfc4648]. rewrite app_nil_r. reflexivity.
    + cbn. constructor.
  - exists []. cbn. rewrite app_nil_r. repeat split; auto; try constructor; try apply Hw; lia.
Qed.

Lemma enc_loop_spec : forall data s out, ewf s -> bytes data ->
  exists d, pending s ++ data = d ++ pending (fst (enc_loop s data out)) /\ full3 d /\
    snd (enc_loop s data out) = out ++ rfc4648 d /\ ewf (fst (enc_loop s data out)) /\ enum (fst (enc_loop s data out)) < 3.
Proof.
  induction data as [|x r IH]; intros s out Hw Hd; cbn [enc_loop]; fold (spill s out);
    destruct (spill_spec s out Hw) as (d & Ep & F & Eo & Hw' & Hn); destruct (spill s out) as [s' out']; cbn [fst snd] in *.
  - exists d. rewrite app_nil_r. auto.
  - inversion Hd; subst. destruct (IH (enc_put s' x) (out ++ rfc4648 d) (ewf_put _ _ Hw' Hn H1) H2) as (d' & Ep' & F' & Eo' & Hw'' & Hn').
    exists (d ++ d'). rewrite pending_put in Ep' by auto. repeat split; auto using full3_app; try apply Hw''.
    + rewrite Ep. rewrite <- !app_assoc. cbn [app]. rewrite <- Ep'. rewrite <- app_assoc. reflexivity.
    + rewrite Eo', rfc_app by auto. rewrite app_assoc. reflexivity.
Qed.

(** One call of encode. *)
Lemma enc_encode_spec : forall s out data last, ewf s -> bytes data ->
  let r := enc_encode s out data last in
  ewf (fst r) /\ enum (fst r) < 3 /\
  (last = false -> exists d, pending s ++ data = d ++ pending (fst r) /\ full3 d /\ snd r = out ++ rfc4648 d) /\
  (last = true -> enum (fst r) = 0 /\ snd r = out ++ rfc4648 (pending s ++ data)).
Proof.
  intros s out data last Hw Hd r. unfold r, enc_encode.
  destruct (enc_loop_spec data s out Hw Hd) as (d & Ep & F & Eo & Hw' & Hn).
  destruct (enc_loop s data out) as [s' out']. cbn [fst snd] in *.
  destruct last; cbn [andb].
  - destruct (Z.eqb_spec (enum s') 0) as [E0|E0]; cbn [negb fst snd].
    + split; [auto|]. split; [auto|]. split; [discriminate|]. intros _. split; auto.
      rewrite Eo, Ep. assert (Hp : pending s' = []) by (unfold pending; rewrite E0; reflexivity).
      rewrite Hp, app_nil_r. reflexivity.
    + split; [apply ewf_clear|]. split; [cbn; lia|]. split; [discriminate|]. intros _. split; [reflexivity|].
      rewrite Ep, rfc_app, enc_flush_rfc, Eo, app_assoc; auto. destruct Hw'; lia.
  - cbn [fst snd]. split; [auto|]. split; [auto|]. split; [|discriminate]. intros _. exists d. auto.
Qed.

(** sizes *)
Lemma rfc_len : forall n l, (length l <= n)%nat -> Z.of_nat (length (rfc4648 l)) = (Z.of_nat (length l) + 2) / 3 * 4.
Proof.
  induction n as [|n IH]; intros l Hl.
  - destruct l; [reflexivity|cbn in Hl; lia].
  - destruct l as [|a [|b [|c r]]]; try reflexivity. cbn [rfc4648 app length] in *. specialize (IH r ltac:(lia)). lia.
Qed.
Lemma pending_len : forall s, ewf s -> Z.of_nat (length (pending s)) = enum s.
Proof. intros s [H _]. unfold pending. rewrite firstn_length. cbn [length]. lia. Qed.

(** * Decoder *)
Definition dpending (s : dec) : list Z := firstn (Z.to_nat (dnum s)) [d0 s; d1 s; d2 s; d3 s].
(* values (not characters) still to be decoded *)
Definition vals (t : list Z) : list Z := map dec_at (filter is_b64 t).

(** Decoding a value sequence, block by block; stops after a short block. *)
Fixpoint dec_vals (l : list Z) : list Z * bool * list Z :=
  match l with
  | a :: b :: c :: d :: r =>
      let o := dec_block (mkdec a b c d 4) in
      if Z.of_nat (length o) <? 3 then (o, true, []) else let '(o', f, rest) := dec_vals r in (o ++ o', f, rest)
  | _ => ([], false, l)
  end.

Lemma dpending_put : forall s v, 0 <= dnum s < 4 -> (v =? 255) = false ->
  dpending (dec_put s v) = dpending s ++ [v] /\ dnum (dec_put s v) = dnum s + 1.
Proof.
  intros s v Hn Hv. unfold dpending, dec_put. rewrite Hv.
  assert (E : dnum s = 0 \/ dnum s = 1 \/ dnum s = 2 \/ dnum s = 3) by lia.
  destruct E as [E|[E|[E|E]]]; rewrite E; split; reflexivity.
Qed.
Lemma dpending_junk : forall s v, 0 <= dnum s < 4 -> (v =? 255) = true ->
  dpending (dec_put s v) = dpending s /\ dnum (dec_put s v) = dnum s.
Proof.
  intros s v Hn Hv. unfold dpending, dec_put. rewrite Hv.
  assert (E : dnum s = 0 \/ dnum s = 1 \/ dnum s = 2 \/ dnum s = 3) by lia.
  destruct E as [E|[E|[E|E]]]; rewrite E; split; reflexivity.
Qed.
Lemma dec_block_ext : forall s n, dec_block s = dec_block (mkdec (d0 s) (d1 s) (d2 s) (d3 s) n).
Proof. intros [a b c d m] n. reflexivity. Qed.
Lemma dpending4 : forall s, dnum s = 4 -> dpending s = [d0 s; d1 s; d2 s; d3 s].
Proof. intros s E. unfold dpending. rewrite E. reflexivity. Qed.

(** The loop decodes the value sequence; when no short block occurs the rest stays pending. *)
Lemma dec_loop_spec : forall data s out, 0 <= dnum s <= 4 ->
  let '(s', out', last) := dec_loop s data out in
  let '(o, f, rest) := dec_vals (dpending s ++ vals data) in
  out' = out ++ o /\ last = f /\ 0 <= dnum s' < 4 /\ dpending s' = rest.
Proof.
  induction data as [|x r IH]; intros s out Hn; cbn [dec_loop].
  - cbn [vals filter map]. rewrite app_nil_r. destruct (dnum s >=? 4) eqn:E.
    + rewrite dpending4 by lia. cbn [dec_vals]. rewrite <- (dec_block_ext s 4).
      destruct (Z.of_nat (length (dec_block s)) <? 3); cbn; repeat split; auto; try lia. rewrite app_nil_r; auto.
    + assert (L : length (dpending s) = Z.to_nat (dnum s)) by (unfold dpending; rewrite firstn_length; cbn; lia).
      assert (D : dec_vals (dpending s) = ([], false, dpending s)).
      { destruct (dpending s) as [|? [|? [|? [|? ?]]]]; auto. cbn in L. lia. }
      rewrite D. rewrite app_nil_r. repeat split; auto; lia.
  - assert (Step : forall s out, 0 <= dnum s < 4 ->
      let '(s', out', last) := dec_loop (dec_put s (dec_at x)) r out in
      let '(o, f, rest) := dec_vals (dpending s ++ vals (x :: r)) in
      out' = out ++ o /\ last = f /\ 0 <= dnum s' < 4 /\ dpending s' = rest).
    { clear s out Hn. intros s out Hn. unfold vals. cbn [filter]. pose proof (dec_at_skip x) as K.
      destruct (is_b64 x) eqn:Ex; cbn [negb] in K.
      - destruct (dpending_put s (dec_at x) Hn K) as [P1 P2].
        specialize (IH (dec_put s (dec_at x)) out ltac:(lia)). cbn [map]. rewrite P1, <- app_assoc in IH. exact IH.
      - destruct (dpending_junk s (dec_at x) Hn K) as [P1 P2].
        specialize (IH (dec_put s (dec_at x)) out ltac:(lia)). rewrite P1 in IH. exact IH. }
    destruct (dnum s >=? 4) eqn:E; [|apply Step; lia].
    rewrite dpending4 by lia. cbn [app dec_vals]. rewrite <- (dec_block_ext s 4).
    destruct (Z.of_nat (length (dec_block s)) <? 3); [cbn; repeat split; auto; lia|].
    specialize (Step (dec_clear s) (out ++ dec_block s) ltac:(cbn; lia)).
    destruct (dec_loop (dec_put (dec_clear s) (dec_at x)) r (out ++ dec_block s)) as [[s' o'] l'].
    change (dpending (dec_clear s)) with (@nil Z) in Step. cbn [app] in Step.
    destruct (dec_vals (vals (x :: r))) as [[o f] rest]. rewrite <- app_assoc in Step. exact Step.
Qed.

(** Values of the RFC text decode back. *)
Lemma g1 : forall a b, 0 <= a < 64 -> 0 <= b < 64 -> Z.land (Z.lor (Z.shiftl a 2) (Z.shiftr b 4)) 255 = (a * 4 + b / 16) mod 256.
Proof.
  intros a b Ha Hb. change 255 with (2 ^ 8 - 1). rewrite land_ones_mod by lia.
  rewrite Z.shiftr_div_pow2 by lia. rewrite shiftl_lor_add by (change (2^4) with 16; change (2^2) with 4; lia). reflexivity.
Qed.
Lemma g2 : forall a b, 0 <= a < 64 -> 0 <= b < 64 -> Z.land (Z.lor (Z.shiftl a 4) (Z.shiftr b 2)) 255 = (a * 16 + b / 4) mod 256.
Proof.
  intros a b Ha Hb. change 255 with (2 ^ 8 - 1). rewrite land_ones_mod by lia.
  rewrite Z.shiftr_div_pow2 by lia. rewrite shiftl_lor_add by (change (2^4) with 16; change (2^2) with 4; lia). reflexivity.
Qed.
Lemma g3 : forall a b, 0 <= a < 64 -> 0 <= b < 64 -> Z.land (Z.lor (Z.shiftl a 6) b) 255 = (a * 64 + b) mod 256.
Proof.
  intros a b Ha Hb. change 255 with (2 ^ 8 - 1). rewrite land_ones_mod by lia.
  rewrite shiftl_lor_add by (change (2^6) with 64; lia). reflexivity.
Qed.

Lemma dec_quad3 : forall a b c, byte a -> byte b -> byte c ->
  dec_block (mkdec (a / 4) ((a * 16 + b / 16) mod 64) ((b * 4 + c / 64) mod 64) (c mod 64) 4) = [a; b; c].
Proof.
  unfold byte. intros a b c Ha Hb Hc. unfold dec_block. cbn [d0 d1 d2 d3].
  replace ((b * 4 + c / 64) mod 64 <? 64) with true by lia.
  replace (c mod 64 <? 64) with true by lia.
  rewrite g1, g2, g3 by lia. repeat (f_equal; try lia).
Qed.
Lemma dec_quad2 : forall a b, byte a -> byte b ->
  dec_block (mkdec (a / 4) ((a * 16 + b / 16) mod 64) ((b * 4 + 0 / 64) mod 64) 64 4) = [a; b].
Proof.
  unfold byte. intros a b Ha Hb. unfold dec_block. cbn [d0 d1 d2 d3].
  replace ((b * 4 + 0 / 64) mod 64 <? 64) with true by lia.
  change (64 <? 64) with false.
  rewrite g1, g2 by lia. repeat (f_equal; try lia).
Qed.
Lemma dec_quad1 : forall a, byte a ->
  dec_block (mkdec (a / 4) ((a * 16 + 0 / 16) mod 64) 64 64 4) = [a].
Proof.
  unfold byte. intros a Ha. unfold dec_block. cbn [d0 d1 d2 d3]. change (64 <? 64) with false.
  rewrite g1 by lia. f_equal; lia.
Qed.
Lemma dec_at_pad : dec_at eq_sign = 64. Proof. reflexivity. Qed.

Lemma dec_vals_rfc : forall n l, (length l <= n)%nat -> bytes l ->
  dec_vals (map dec_at (rfc4648 l)) = (l, negb (Nat.eqb (length l mod 3) 0), []).
Proof.
  induction n as [|n IH]; intros l Hl Hb.
  - destruct l; [reflexivity|cbn in Hl; lia].
  - destruct l as [|a [|b [|c r]]]; [reflexivity|binv|binv|binv].
    + cbn [rfc4648 map]. rewrite sx0, sx1 by auto using byte0. rewrite dec_at_pad. unfold byte in *.
      rewrite !dec_enc_at by lia. cbn [dec_vals]. rewrite dec_quad1 by auto. reflexivity.
    + cbn [rfc4648 map]. rewrite sx0, sx1, sx2 by auto using byte0. rewrite dec_at_pad. unfold byte in *.
      rewrite !dec_enc_at by lia. cbn [dec_vals]. rewrite dec_quad2 by auto. reflexivity.
    + cbn [rfc4648 map app]. rewrite sx0, sx1, sx2, sx3 by auto. unfold byte in *.
      rewrite !dec_enc_at by lia. cbn [dec_vals]. rewrite dec_quad3 by auto.
      cbn [length] in Hl. rewrite IH by (auto; lia).
      change (Z.of_nat (length [a; b; c]) <? 3) with false. cbn [app].
      replace (length (a :: b :: c :: r) mod 3)%nat with (length r mod 3)%nat by (cbn [length]; lia). reflexivity.
Qed.

Lemma rfc_is_b64 : forall n l, (length l <= n)%nat -> bytes l -> forallb is_b64 (rfc4648 l) = true.
Proof.
  assert (D : forall n i, is_b64 (digit (sextet n i)) = true).
  { intros. apply digit_b64. unfold sextet. lia. }
  induction n as [|n IH]; intros l Hl Hb.
  - destruct l; [reflexivity|cbn in Hl; lia].
  - destruct l as [|a [|b [|c r]]]; [reflexivity|binv|binv|binv].
    + cbn [rfc4648 forallb]. rewrite !D. reflexivity.
    + cbn [rfc4648 forallb]. rewrite !D. reflexivity.
    + cbn [rfc4648 forallb app]. rewrite !D. cbn [andb]. apply IH; auto. cbn in Hl. lia.
Qed.

Lemma trim_nul_id : forall l, ~ In 0 l -> trim_nul l = l.
Proof.
  induction l as [|x r IH]; intros H; auto. cbn. destruct (Z.eqb_spec x 0) as [->|E]; [exfalso; apply H; left; auto|].
  f_equal. apply IH. intros F. apply H. right. auto.
Qed.

(** dec_vals over concatenations: running on a prefix first, then on what is left. *)
Lemma dec_vals_app : forall n a b, (length a <= n)%nat ->
  let '(o, f, rest) := dec_vals a in
  if f then dec_vals (a ++ b) = (o, true, [])
  else let '(o', f', rest') := dec_vals (rest ++ b) in dec_vals (a ++ b) = (o ++ o', f', rest').
Proof.
  induction n as [|n IH]; intros a b Hl.
  - destruct a; [|cbn in Hl; lia]. cbn. destruct (dec_vals b) as [[o f] rest]. auto.
  - destruct a as [|x [|y [|z [|w r]]]].
    1-4: cbn [dec_vals]; match goal with |- context[dec_vals ?l] => destruct (dec_vals l) as [[? ?] ?] end; reflexivity.
    cbn [dec_vals app]. destruct (Z.of_nat (length (dec_block (mkdec x y z w 4))) <? 3); auto.
    specialize (IH r b ltac:(cbn in Hl; lia)). destruct (dec_vals r) as [[o f] rest]. destruct f.
    + rewrite IH. reflexivity.
    + destruct (dec_vals (rest ++ b)) as [[o' f'] rest']. rewrite IH. rewrite app_assoc. reflexivity.
Qed.

Lemma vals_app : forall a b, vals (a ++ b) = vals a ++ vals b.
Proof. intros. unfold vals. rewrite filter_app, map_app. reflexivity. Qed.

(** number of decoded bytes *)
Lemma dec_vals_len : forall n l, (length l <= n)%nat ->
  Z.of_nat (length (fst (fst (dec_vals l)))) <= Z.of_nat (length l) / 4 * 3.
Proof.
  assert (B : forall s, Z.of_nat (length (dec_block s)) <= 3).
  { intros s. unfold dec_block. dif; cbn; lia. }
  induction n as [|n IH]; intros l Hl.
  - destruct l; [cbn; lia|cbn in Hl; lia].
  - destruct l as [|x [|y [|z [|w r]]]]; try (cbn [dec_vals fst length]; lia).
    cbn [dec_vals]. specialize (B (mkdec x y z w 4)). destruct (Z.of_nat (length (dec_block (mkdec x y z w 4))) <? 3) eqn:E.
    + cbn [fst length] in *. lia.
    + specialize (IH r ltac:(cbn in Hl; lia)). destruct (dec_vals r) as [[o f] rest]. cbn [fst length] in *. rewrite app_length. lia.
Qed.
Lemma vals_len : forall l, (length (vals l) <= length l)%nat.
Proof.
  intros. unfold vals. rewrite map_length. induction l as [|x r IH]; cbn; auto. destruct (is_b64 x); cbn; lia.
Qed.
Lemma trim_len : forall l, (length (trim_nul l) <= length l)%nat.
Proof. induction l as [|x r IH]; cbn; auto. destruct (x =? 0); cbn; lia. Qed.
