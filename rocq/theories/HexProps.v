(** Final theorems about include/stdex/hex.hpp: properties C13, C69. *)
From Verif Require Import Base Bits HexModel.
From Coq Require Import ZifyBool ZifyNat.
Ltac Zify.zify_post_hook ::= Z.div_mod_to_equations.

(** Specification: hexadecimal digits. *)
Definition hex_upper (v : Z) : Z := if v <? 10 then 48 + v else 55 + v.  (* '0'..'9' 'A'..'F' *)
Definition hex_value (c : Z) : option Z :=
  if (48 <=? c) && (c <=? 57) then Some (c - 48)
  else if (65 <=? c) && (c <=? 70) then Some (c - 55)
  else if (97 <=? c) && (c <=? 102) then Some (c - 87)
  else None.
(* values of the hexadecimal digits of a text, everything else ignored *)
Fixpoint digits (t : list Z) : list Z :=
  match t with [] => [] | c :: r => match hex_value c with Some v => v :: digits r | None => digits r end end.
Fixpoint pair_up (l : list Z) : list Z :=
  match l with a :: b :: r => 16 * a + b :: pair_up r | _ => [] end.
Definition is_byte (x : Z) : Prop := 0 <= x < 256.

(** C13.  Two uppercase digits per byte. *)
Theorem hex_encode_spec : forall (out data : list Z), Forall is_byte data ->
  hex_encode out data = out ++ flat_map (fun x => [hex_upper (x / 16); hex_upper (x mod 16)]) data /\
  (Z.of_nat (length data) < 2 ^ 63 ->
     Z.of_nat (length (hex_encode out data)) = Z.of_nat (length out) + hex_enc_size (Z.of_nat (length data))).
Proof.
  intros out data H.
  assert (B : forall x, is_byte x -> hex_enc_byte x = [hex_upper (x / 16); hex_upper (x mod 16)]).
  { intros x Hx. pose proof (all_below_spec (fun x => match hex_enc_byte x with [a; b] => (a =? hex_upper (x / 16)) && (b =? hex_upper (x mod 16)) | _ => false end) 256 ltac:(vm_compute; reflexivity) x Hx) as K.
    cbn beta in K. unfold hex_enc_byte in *. apply andb_prop in K. destruct K as [K1 K2]. apply Z.eqb_eq in K1, K2. rewrite K1, K2. reflexivity. }
  assert (E : hex_encode out data = out ++ flat_map (fun x => [hex_upper (x / 16); hex_upper (x mod 16)]) data).
  { revert out. induction H as [|x r Hx Hr IH]; intros out; cbn [hex_encode flat_map]; [rewrite app_nil_r; auto|].
    rewrite IH, B by auto. rewrite <- app_assoc. reflexivity. }
  split; [exact E|]. intros Hl. change (2 ^ 63) with 9223372036854775808 in Hl. rewrite E, app_length. unfold hex_enc_size. rewrite u64_small by lia.
  clear E Hl B. induction H as [|x r Hx Hr IH]; cbn [flat_map app length] in *; lia.
Qed.

(** The decoder state: digits seen and not yet paired. *)
Definition hpend (s : hexdec) : list Z :=
  if hnum s =? 0 then [] else if hnum s =? 1 then [hbuf s mod 16] else [hbuf s / 16; hbuf s mod 16].
Definition hwf (s : hexdec) : Prop := 0 <= hnum s <= 2 /\ 0 <= hbuf s < 256.

Lemma hex_char_spec : forall s x, hwf s -> hnum s < 2 ->
  hwf (hex_char s x) /\ hpend (hex_char s x) = hpend s ++ match hex_value x with Some v => [v] | None => [] end.
Proof.
  intros s x [Hn Hb] H2.
  assert (P : forall v, 0 <= v < 16 -> hwf (hex_put s v) /\ hpend (hex_put s v) = hpend s ++ [v]).
  { intros v Hv. unfold hex_put, hwf, hpend. cbn [hbuf hnum]. rewrite u8_small by lia.
    change 15 with (2 ^ 4 - 1). rewrite land_ones_mod by lia. change (2 ^ 4) with 16.
    assert (E : Z.lor (Z.shiftl (hbuf s mod 16) 4) v = (hbuf s mod 16) * 16 + v).
    { rewrite shiftl_lor_add by (change (2 ^ 4) with 16; lia). reflexivity. }
    rewrite E. assert (C : hnum s = 0 \/ hnum s = 1) by lia. destruct C as [C|C]; rewrite C; split; try (split; lia).
    - change (0 =? 0) with true. change (0 + 1 =? 0) with false. change (0 + 1 =? 1) with true. cbv iota. cbn [app]. f_equal. lia.
    - change (1 =? 0) with false. change (1 =? 1) with true. change (1 + 1 =? 0) with false. change (1 + 1 =? 1) with false. cbv iota. cbn [app]. repeat (f_equal; try lia). }
  unfold hex_char, hex_value. destruct ((48 <=? x) && (x <=? 57)) eqn:E1; [apply P; lia|].
  destruct ((65 <=? x) && (x <=? 70)) eqn:E2; [replace (x - 55) with (x - (65 - 10)) by lia; apply P; lia|].
  destruct ((97 <=? x) && (x <=? 102)) eqn:E3; [replace (x - 87) with (x - (97 - 10)) by lia; apply P; lia|].
  rewrite app_nil_r. split; auto. split; auto.
Qed.

Fixpoint odd_rest (l : list Z) : list Z :=
  match l with a :: b :: r => odd_rest r | l => l end.
Lemma pair_rest_app : forall n a b, (length a <= n)%nat ->
  pair_up (a ++ b) = pair_up a ++ pair_up (odd_rest a ++ b) /\ odd_rest (a ++ b) = odd_rest (odd_rest a ++ b).
Proof.
  induction n as [|n IH]; intros a b H.
  - destruct a; [split; reflexivity|cbn in H; lia].
  - destruct a as [|x [|y r]]; [split; reflexivity|split; reflexivity|]. cbn [app pair_up odd_rest].
    destruct (IH r b ltac:(cbn in H; lia)) as [I1 I2]. rewrite I1, I2. split; reflexivity.
Qed.

Lemma hex_loop_spec : forall data s out, hwf s ->
  let '(s', out', last) := hex_loop s data out in
  out' = out ++ pair_up (hpend s ++ digits data) /\ hwf s' /\ hnum s' < 2 /\ hpend s' = odd_rest (hpend s ++ digits data).
Proof.
  induction data as [|x r IH]; intros s out [Hn Hb]; cbn [hex_loop].
  - cbn [digits]. rewrite app_nil_r. destruct (hnum s >=? 2) eqn:E.
    + assert (E2 : hnum s = 2) by lia. unfold hpend. rewrite E2. cbn [hnum hbuf]. ceq. cbn [pair_up odd_rest]. split; [|repeat split; cbn; lia]. do 2 f_equal. lia.
    + assert (C : hnum s = 0 \/ hnum s = 1) by lia. unfold hpend. destruct C as [C|C]; rewrite C; ceq; cbn [pair_up odd_rest]; rewrite app_nil_r; repeat split; auto; lia.
  - destruct (hnum s >=? 2) eqn:E.
    + assert (E2 : hnum s = 2) by lia.
      assert (W : hwf (mkhex (hbuf s) 0)) by (split; cbn; lia).
      destruct (hex_char_spec (mkhex (hbuf s) 0) x W ltac:(cbn; lia)) as [W' P'].
      specialize (IH (hex_char (mkhex (hbuf s) 0) x) (out ++ [hbuf s]) W').
      destruct (hex_loop _ r _) as [[s' o'] l']. rewrite P' in IH. change (hpend (mkhex (hbuf s) 0)) with (@nil Z) in IH. cbn [app] in IH.
      assert (Q : hpend s = [hbuf s / 16; hbuf s mod 16]) by (unfold hpend; rewrite E2; reflexivity).
      rewrite Q. cbn [app pair_up odd_rest].
      assert (D : (match hex_value x with Some v => [v] | None => [] end) ++ digits r = digits (x :: r)) by (cbn; destruct (hex_value x); reflexivity).
      rewrite D in IH. destruct IH as (I1 & I2 & I3 & I4). repeat split; auto; try apply I2.
      rewrite I1, <- app_assoc. cbn [app]. do 2 f_equal. lia.
    + destruct (hex_char_spec s x ltac:(split; lia) ltac:(lia)) as [W' P'].
      specialize (IH (hex_char s x) out W').
      destruct (hex_loop _ r _) as [[s' o'] l']. rewrite P', <- app_assoc in IH.
      assert (D : (match hex_value x with Some v => [v] | None => [] end) ++ digits r = digits (x :: r)) by (cbn; destruct (hex_value x); reflexivity).
      rewrite D in IH. exact IH.
Qed.

Fixpoint hex_session (s : hexdec) (out : list Z) (chunks : list (list Z)) : list Z :=
  match chunks with [] => out | c :: r => let '(s, out, _) := hex_decode s out c in hex_session s out r end.

Lemma hex_trim_id : forall l, ~ In 0 l -> hex_trim l = l.
Proof.
  induction l as [|x r IH]; intros H; auto. cbn. destruct (Z.eqb_spec x 0) as [->|E]; [exfalso; apply H; left; auto|].
  f_equal. apply IH. intros F. apply H. right. auto.
Qed.
Lemma digits_app : forall a b, digits (a ++ b) = digits a ++ digits b.
Proof. induction a as [|x a IH]; intros; cbn; auto. rewrite IH. destruct (hex_value x); reflexivity. Qed.

(** C13.  Decoding any text in any chunking pairs up its hexadecimal digits, ignoring all other
    characters; an unpaired last digit yields nothing. *)
Theorem hex_decode_pairs : forall (chunks : list (list Z)), ~ In 0 (concat chunks) ->
  hex_session hexdec_new [] chunks = pair_up (digits (concat chunks)).
Proof.
  assert (G : forall chunks s out, hwf s -> hnum s < 2 -> ~ In 0 (concat chunks) ->
    hex_session s out chunks = out ++ pair_up (hpend s ++ digits (concat chunks))).
  { induction chunks as [|c r IH]; intros s out W H2 H0; cbn [hex_session concat].
    - cbn [digits]. rewrite app_nil_r. destruct W. assert (C : hnum s = 0 \/ hnum s = 1) by lia. unfold hpend. destruct C as [C|C]; rewrite C; ceq; cbn [pair_up odd_rest]; rewrite app_nil_r; auto.
    - unfold hex_decode. rewrite hex_trim_id by (intros F; apply H0; cbn; apply in_or_app; auto).
      pose proof (hex_loop_spec c s out W) as K. destruct (hex_loop s c out) as [[s' o'] l]. destruct K as (K1 & K2 & K3 & K4).
      rewrite IH; auto; [|intros F; apply H0; cbn; apply in_or_app; auto].
      rewrite K1, K4, digits_app, (app_assoc (hpend s)).
      destruct (pair_rest_app _ (hpend s ++ digits c) (digits (concat r)) (le_n _)) as [P1 P2]. rewrite P1, app_assoc. reflexivity. }
  intros chunks H0. rewrite G; auto; [split; cbn; lia|cbn; lia].
Qed.

(** C13.  The encoder's text decodes to the data, whatever the chunking of the text. *)
Theorem hex_round_trip : forall (data : list Z) (chunks : list (list Z)), Forall is_byte data ->
  concat chunks = hex_encode [] data -> hex_session hexdec_new [] chunks = data.
Proof.
  intros data chunks H E. destruct (hex_encode_spec [] data H) as [K _]. rewrite K in E. cbn [app] in E. clear K.
  assert (D : forall v, 0 <= v < 16 -> hex_value (hex_upper v) = Some v /\ hex_upper v <> 0).
  { intros v Hv. pose proof (all_below_spec (fun v => match hex_value (hex_upper v) with Some w => (w =? v) && negb (hex_upper v =? 0) | None => false end) 16 ltac:(vm_compute; reflexivity) v Hv) as K.
    cbn beta in K. destruct (hex_value (hex_upper v)); [|discriminate]. split; [f_equal; lia|lia]. }
  rewrite hex_decode_pairs.
  - rewrite E. clear E. induction H as [|x r Hx Hr IH]; [reflexivity|]. unfold is_byte in *. cbn [flat_map app digits].
    rewrite (proj1 (D (x / 16) ltac:(lia))), (proj1 (D (x mod 16) ltac:(lia))). cbn [pair_up]. rewrite IH. f_equal. lia.
  - rewrite E. intros F. apply in_flat_map in F. destruct F as (x & Hin & Hx). rewrite Forall_forall in H. specialize (H x Hin). unfold is_byte in H.
    destruct Hx as [F|[F|[]]]; revert F; apply D; lia.
Qed.
Example hex_round_ex : hex_session hexdec_new [] [[52]; [49; 32; 97]; [70; 48]] = [65; 175]. (* "4" "1 a" "F0" *)
Proof. reflexivity. Qed.

(** The size estimate bounds what a decode call appends. *)
Inductive hex_reach : hexdec -> Prop :=
| hr_new : hex_reach hexdec_new
| hr_decode : forall s out data, hex_reach s -> hex_reach (fst (fst (hex_decode s out data)))
| hr_clear : forall s, hex_reach s -> hex_reach (hexdec_clear s).
Lemma hex_reach_wf : forall s, hex_reach s -> hwf s /\ hnum s < 2.
Proof.
  induction 1 as [|s out data H IH|s H IH]; [split; [split|]; cbn; lia| |destruct IH as [[? ?] ?]; split; [split|]; cbn; lia].
  destruct IH as [W _]. unfold hex_decode. pose proof (hex_loop_spec (hex_trim data) s out W) as K.
  destruct (hex_loop s (hex_trim data) out) as [[s' o'] l]. cbn. destruct K as (_ & K2 & K3 & _). auto.
Qed.
Theorem hex_dec_size_bound : forall (s : hexdec) (out data : list Z), hex_reach s -> Z.of_nat (length data) < 2 ^ 63 ->
  Z.of_nat (length (snd (fst (hex_decode s out data)))) <= Z.of_nat (length out) + hex_dec_size (Z.of_nat (length data)).
Proof.
  intros s out data Hr Hl. change (2 ^ 63) with 9223372036854775808 in Hl. destruct (hex_reach_wf s Hr) as [W H2].
  assert (PL : forall n l, (length l <= n)%nat -> Z.of_nat (length (pair_up l)) <= Z.of_nat (length l) / 2).
  { induction n as [|n IH]; intros [|a [|b r]] H; cbn [length pair_up] in *; try lia. specialize (IH r ltac:(lia)). lia. }
  assert (DL : forall l, (length (digits l) <= length l)%nat) by (induction l as [|x r IH]; cbn; auto; destruct (hex_value x); cbn; lia).
  assert (TL : forall l, (length (hex_trim l) <= length l)%nat) by (induction l as [|x r IH]; cbn; auto; destruct (x =? 0); cbn; lia).
  unfold hex_decode. pose proof (hex_loop_spec (hex_trim data) s out W) as K.
  destruct (hex_loop s (hex_trim data) out) as [[s' o'] l]. cbn [fst snd]. destruct K as (-> & _).
  specialize (PL _ (hpend s ++ digits (hex_trim data)) (le_n _)). specialize (DL (hex_trim data)). specialize (TL data).
  assert (Z.of_nat (length (hpend s)) <= 1). { unfold hpend. destruct W. assert (C : hnum s = 0 \/ hnum s = 1) by lia. destruct C as [C|C]; rewrite C; ceq; cbn; lia. }
  unfold hex_dec_size. rewrite u64_small by lia. rewrite app_length in *. lia.
Qed.

(** C69 is violated: after "41\n" all digits are paired but is_last is false. *)
Theorem hex_is_last_refuted :
  hex_decode hexdec_new [] [52; 49] = (mkhex 65 0, [65], true) /\
  hex_decode hexdec_new [] [52; 49; 10] = (mkhex 65 0, [65], false).
Proof. split; reflexivity. Qed.
(** C69, what holds: when the last character is a hexadecimal digit, is_last tells whether all
    digits are paired. *)
Theorem hex_is_last_partial : forall (s : hexdec) (out data : list Z) (c : Z),
  hex_reach s -> ~ In 0 (data ++ [c]) -> hex_value c <> None ->
  let '(s', _, is_last) := hex_decode s out (data ++ [c]) in is_last = (hnum s' =? 0).
Proof.
  intros s out data c Hr H0 Hc. destruct (hex_reach_wf s Hr) as [W H2]. unfold hex_decode. rewrite hex_trim_id by auto. clear H0 Hr H2.
  revert s out W. induction data as [|x r IH]; intros s out W; cbn [app].
  - cbn [hex_loop]. destruct W as [Hn Hb].
    set (p := if hnum s >=? 2 then _ else _). assert (P : exists s1 o1 l1, p = (s1, o1, l1) /\ hwf s1 /\ hnum s1 < 2).
    { unfold p. destruct (hnum s >=? 2) eqn:E; eexists _, _, _; (split; [reflexivity|]); repeat split; cbn; lia. }
    destruct P as (s1 & o1 & l1 & -> & W1 & H1). destruct (hex_char_spec s1 c W1 H1) as [[W2 W3] P2].
    destruct (hex_value c) as [v|] eqn:Ev; [|contradiction].
    destruct (hnum (hex_char s1 c) >=? 2) eqn:E; [reflexivity|].
    assert (hnum (hex_char s1 c) <> 0). { intros Z0. unfold hpend in P2. rewrite Z0 in P2. destruct (if hnum s1 =? 0 then _ else _); discriminate P2. }
    symmetry. apply Z.eqb_neq. auto.
  - cbn [hex_loop]. destruct W as [Hn Hb]. destruct (hnum s >=? 2) eqn:E.
    + apply IH. apply hex_char_spec; [split|]; cbn; lia.
    + apply IH. apply hex_char_spec; [split|]; lia.
Qed.

Print Assumptions hex_encode_spec.
Print Assumptions hex_decode_pairs.
Print Assumptions hex_round_trip.
Print Assumptions hex_dec_size_bound.
Print Assumptions hex_is_last_refuted.
Print Assumptions hex_is_last_partial.
