(** Items: what the encoder emits and what the decoder makes of it. *)
From Coq Require Import ZifyBool ZifyNat.
From Verif Require Import Base Bits StringModel StringSpec StringProofs StringSearch StringTrim StringProps SgmlTable SgmlModel SgmlSpec SgmlSearch SgmlDecode SgmlCodec.
Ltac Zify.zify_post_hook ::= Z.div_mod_to_equations.

Definition num_good (w : width) (v : Z) : Prop :=
  match w with U16 => 0 < v < 1114112 | U32 => v <> 0 /\ -2147483648 <= v < 2147483648 end.
Definition item_good (w : width) (x : item) : Prop :=
  match x with
  | IChar c => 0 < c <= 127 /\ c <> 38
  | IEnt name => exists u, In (name, u) sgml_unicode
  | INum v => num_good w v
  end.
Definition item_from (w : width) (x : item) (p : list Z) : Prop :=
  match x with
  | IChar c => p = [c]
  | IEnt name => exists u, In (name, u) sgml_unicode /\ p = units w u
  | INum v => p = units w [v]
  end.
Definition item_value (w : width) (x : item) : list Z :=
  match x with
  | IChar c => [c]
  | IEnt name => match expansion name with Some u => units w u | None => [] end
  | INum v => units w [v]
  end.

(** ** Encoder *)
Lemma amp_in : In ([97; 109; 112], [38]) sgml_unicode.
Proof.
  assert (H : existsb (fun e => if list_eq_dec Z.eq_dec (fst e) ([97; 109; 112]) then (if list_eq_dec Z.eq_dec (snd e) [38] then true else false) else false) sgml_unicode = true) by (vm_compute; reflexivity).
  apply existsb_exists in H as ([a b] & Hi & He). cbn [fst snd] in He. destruct (list_eq_dec Z.eq_dec a _); [|discriminate]. destruct (list_eq_dec Z.eq_dec b _); [|discriminate]. subst. auto.
Qed.

Lemma wstr_to_utf32_spec : forall w s n, (0 < n)%nat -> (n <= length s)%nat -> Forall (ok_unit w) (firstn n s) ->
  exists v k, wstr_to_utf32 w s n = Ret (v, k) /\ (1 <= k <= n)%nat /\ units w [v] = firstn k s /\ num_good w v.
Proof.
  intros w s n Hn Hl HF. destruct s as [|a s]; [cbn in Hl; lia|]. destruct n as [|n]; [lia|].
  assert (Ha : ok_unit w a) by (cbn [firstn] in HF; inversion HF; auto).
  destruct w; cbn [wstr_to_utf32].
  2: { unfold rd. cbn [nth_error obind]. exists a, 1%nat. repeat split; auto; try lia; destruct Ha; auto; lia. }
  cbn [ok_unit] in Ha. destruct (S n <=? 1)%nat eqn:E; cbn [obind negb].
  - unfold rd. cbn [nth_error obind]. exists a, 1%nat. repeat split; auto; try (cbn; lia). cbn. unfold utf16_of. replace (a <? 65536) with true by lia. reflexivity.
  - destruct s as [|b s]; [cbn in Hl; lia|]. rewrite surr_dec. destruct n; [lia|].
    assert (Hb : ok_unit U16 b) by (cbn [firstn] in HF; inversion HF as [|? ? ? Q]; inversion Q; auto). cbn [ok_unit] in Hb.
    destruct (is_high_surrogate a) eqn:EH; [destruct (is_low_surrogate b) eqn:EL|]; cbn [obind negb]; unfold rd; cbn [nth_error obind].
    + rewrite surr_value by auto. unfold is_high_surrogate, is_low_surrogate in *. eexists; exists 2%nat. split; [reflexivity|]. split; [lia|]. split; [|cbn; lia].
      unfold units, utf16, flat_map. unfold utf16_of. replace (_ <? 65536) with false by lia. cbn [app firstn].
      replace (65536 + (a - 55296) * 1024 + (b - 56320) - 65536) with ((b - 56320) + (a - 55296) * 1024) by lia.
      rewrite Z.div_add, Z.mod_add by lia. rewrite (Z.div_small (b - 56320)), (Z.mod_small (b - 56320)) by lia. f_equal; [lia|f_equal; lia].
    + exists a, 1%nat. repeat split; auto; try (cbn; lia). cbn. unfold utf16_of. replace (a <? 65536) with true by lia. reflexivity.
    + exists a, 1%nat. repeat split; auto; try (cbn; lia). cbn. unfold utf16_of. replace (a <? 65536) with true by lia. reflexivity.
Qed.

Lemma firstn_split : forall (s : list Z) k n, (k <= n)%nat -> firstn n s = firstn k s ++ firstn (n - k) (skipn k s).
Proof.
  intros s k n H. rewrite <- (firstn_skipn k (firstn n s)). rewrite firstn_firstn. replace (Nat.min k n) with k by lia.
  f_equal. rewrite firstn_skipn_comm. replace (k + (n - k))%nat with n by lia. reflexivity.
Qed.
Lemma ok_first : forall w s k n, (k <= n)%nat -> Forall (ok_unit w) (firstn n s) -> Forall (ok_unit w) (firstn k s) /\ Forall (ok_unit w) (firstn (n - k) (skipn k s)).
Proof. intros w s k n H F. rewrite (firstn_split s k n H) in F. apply Forall_app in F. exact F. Qed.

Definition encoded (w : width) (items : list item) (src : list Z) : Prop :=
  Forall (item_good w) items /\ exists pieces, Forall2 (item_from w) items pieces /\ concat pieces = src.
Lemma encoded_cons : forall w x p items s t, item_good w x -> item_from w x p -> encoded w items s -> t = p ++ s -> encoded w (x :: items) t.
Proof. intros w x p items s t G F (H1 & ps & H2 & H3) ->. split; [constructor; auto|]. exists (p :: ps). split; [constructor; auto|]. cbn. rewrite H3. reflexivity. Qed.
Lemma encoded_app : forall w i1 s1 i2 s2, encoded w i1 s1 -> encoded w i2 s2 -> encoded w (i1 ++ i2) (s1 ++ s2).
Proof.
  intros w i1 s1 i2 s2 (G1 & p1 & F1 & C1) (G2 & p2 & F2 & C2). split; [apply Forall_app; auto|]. exists (p1 ++ p2). split; [apply Forall2_app; auto|]. rewrite concat_app. congruence.
Qed.
Lemma encoded_nil : forall w, encoded w [] [].
Proof. split; auto. exists []. auto. Qed.

Lemma ascii_good : forall w c s, is7bit c = true -> ok_unit w c -> (forall name u, In (name, u) sgml_unicode -> units w u <> firstn 1 (c :: s)) -> item_good w (IChar c).
Proof.
  intros w c s H1 H2 H3. unfold is7bit in H1. cbn. split. { destruct w; cbn in H2; lia. }
  intros ->. apply (H3 _ _ amp_in). destruct w; reflexivity.
Qed.
Lemma unit_num : forall w c, ok_unit w c -> num_good w c /\ units w [c] = [c].
Proof. intros [] c H; cbn in *; split; auto; try lia. unfold utf16_of. replace (c <? 65536) with true by lia. reflexivity. Qed.

Lemma decompose_spec : forall fuel w s n, (n < fuel)%nat -> (n <= length s)%nat -> Forall (ok_unit w) (firstn n s) ->
  exists items, decompose fuel w s n = Ret items /\ encoded w items (firstn n s).
Proof.
  induction fuel; intros w s n Hf Hl HF; [lia|]. cbn [decompose]. destruct n as [|m]. { exists []. split; auto. apply encoded_nil. }
  set (n := S m) in *. assert (Hn : (0 < n)%nat) by lia.
  destruct (ok_first w s 1 n ltac:(lia) HF) as [F1 F1'].
  destruct (chr2sgml_spec w s 1 ltac:(lia) ltac:(lia) F1) as (r & Er & Sr & Cr). rewrite Er. cbn [obind].
  destruct s as [|c s']; [cbn in Hl; lia|].
  assert (Step1 : exists items, decompose fuel w (skipn 1 (c :: s')) (n - 1) = Ret items /\ encoded w items (firstn (n - 1) (skipn 1 (c :: s')))).
  { apply IHfuel; auto; try lia. cbn [skipn length] in *. lia. }
  destruct Step1 as (items & Ei & Hi).
  assert (Hc : ok_unit w c) by (cbn [firstn] in F1; inversion F1; auto).
  destruct r as [name|].
  - rewrite Ei. cbn [obind]. eexists; split; [reflexivity|]. destruct (Sr name eq_refl) as (u & Iu & Eu).
    eapply encoded_cons; [exists u; eauto|exists u; eauto|exact Hi|]. rewrite Eu. apply firstn_split. lia.
  - unfold rd. cbn [nth_error obind]. destruct (is7bit c) eqn:E7.
    + rewrite Ei. cbn [obind]. eexists; split; [reflexivity|]. eapply encoded_cons; [eapply ascii_good; eauto|reflexivity|exact Hi|]. change [c] with (firstn 1 (c :: s')). apply firstn_split. lia.
    + destruct (wstr_to_utf32_spec w (c :: s') n Hn Hl HF) as (v & k & Ev & Hk & Uv & Gv). rewrite Ev. cbn [obind].
      destruct (IHfuel w (skipn k (c :: s')) (n - k)%nat) as (items2 & Ei2 & Hi2); try lia. { rewrite skipn_length. lia. } { apply ok_first; auto; lia. }
      rewrite Ei2. cbn [obind]. eexists; split; [reflexivity|]. eapply encoded_cons; [exact Gv|reflexivity|exact Hi2|]. rewrite Uv. apply firstn_split. lia.
Qed.

Lemma glyphlen_range : forall w s n, (0 < n)%nat -> (n <= length s)%nat -> exists g, glyphlen w s n = Ret g /\ (1 <= g <= n)%nat.
Proof.
  intros [] s n H1 H2; cbn.
  - destruct (glyphlen_utf16_spec s n H1 H2) as (g & b & E & R & _). eauto.
  - destruct (glyphlen_utf32_spec s n H1 H2) as (g & E & R & _). eauto.
Qed.

Lemma plain_amp : forall what, plain what 38 = false.
Proof. intros. unfold plain. change (is7bit 38) with true. change (38 =? 38) with true. cbn [negb]. rewrite andb_false_r. reflexivity. Qed.
Lemma plain_good : forall w what c, plain what c = true -> ok_unit w c -> item_good w (IChar c).
Proof.
  intros w what c H Hc. assert (is7bit c = true). { unfold plain in H. repeat (apply andb_prop in H as [H ?]). assumption. }
  unfold is7bit in H0. cbn. split. destruct w; cbn in Hc; lia. intros ->. rewrite plain_amp in H. discriminate.
Qed.

Lemma encode_spec : forall fuel w what s n, (n < fuel)%nat -> (n <= length s)%nat -> Forall (ok_unit w) (firstn n s) ->
  exists items, encode fuel w what s n = Ret items /\ encoded w items (firstn n s).
Proof.
  induction fuel; intros w what s n Hf Hl HF; [lia|]. cbn [encode]. destruct n as [|m]. { exists []. split; auto. apply encoded_nil. }
  set (n := S m) in *. assert (Hn : (0 < n)%nat) by lia.
  destruct (glyphlen_range w s n Hn Hl) as (g & Eg & Rg). rewrite Eg. cbn [obind].
  destruct s as [|c s']; [cbn in Hl; lia|]. unfold rd. cbn [nth_error obind].
  assert (IH : forall k, (1 <= k <= n)%nat -> exists items, encode fuel w what (skipn k (c :: s')) (n - k) = Ret items /\ encoded w items (firstn (n - k) (skipn k (c :: s')))).
  { intros k Hk. apply IHfuel; try lia. rewrite skipn_length. lia. apply ok_first; auto; lia. }
  assert (Hc : ok_unit w c) by (cbn [firstn] in HF; inversion HF; auto).
  destruct ((g =? 1)%nat && plain what c) eqn:E.
  - destruct (IH 1%nat ltac:(lia)) as (items & Ei & Hi). rewrite Ei. cbn [obind]. eexists; split; [reflexivity|].
    apply andb_prop in E as [_ E]. eapply encoded_cons; [eapply plain_good; eauto|reflexivity|exact Hi|]. change [c] with (firstn 1 (c :: s')). apply firstn_split. lia.
  - destruct (chr2sgml_spec w (c :: s') g ltac:(lia) ltac:(lia)) as (r & Er & Sr & Cr); [apply (ok_first w (c :: s') g n); [lia|exact HF]|]. rewrite Er. cbn [obind].
    destruct r as [name|].
    + destruct (IH g ltac:(lia)) as (items & Ei & Hi). rewrite Ei. cbn [obind]. eexists; split; [reflexivity|]. destruct (Sr name eq_refl) as (u & Iu & Eu).
      eapply encoded_cons; [exists u; eauto|exists u; eauto|exact Hi|]. rewrite Eu. apply firstn_split. lia.
    + destruct (g =? 1)%nat eqn:Eg1.
      * destruct (IH 1%nat ltac:(lia)) as (items & Ei & Hi). rewrite Ei. cbn [obind]. eexists; split; [reflexivity|].
        replace g with 1%nat in * by lia. destruct (is7bit c) eqn:E7.
        -- eapply encoded_cons; [eapply ascii_good; eauto|reflexivity|exact Hi|]. change [c] with (firstn 1 (c :: s')). apply firstn_split. lia.
        -- destruct (unit_num w c Hc) as [Gc Uc]. eapply encoded_cons; [exact Gc|reflexivity|exact Hi|]. rewrite Uc. change [c] with (firstn 1 (c :: s')). apply firstn_split. lia.
      * destruct (decompose_spec (S g) w (c :: s') g ltac:(lia) ltac:(lia)) as (di & Ed & Hd); [apply (ok_first w (c :: s') g n); [lia|exact HF]|]. rewrite Ed. cbn [obind].
        destruct (IH g ltac:(lia)) as (items & Ei & Hi). rewrite Ei. cbn [obind]. eexists; split; [reflexivity|].
        rewrite (firstn_split (c :: s') g n) by lia. apply encoded_app; auto.
Qed.

(** ** Decoder *)
Lemma hexdigit_value : forall d, 0 <= d < 16 -> digit_value (hexdigit d) = d /\ (48 <= hexdigit d <= 57 \/ 97 <= hexdigit d <= 102).
Proof.
  intros d H. unfold hexdigit, digit_value. destruct (d <? 10) eqn:E.
  - replace ((48 <=? 48 + d) && (48 + d <=? 57)) with true by lia. lia.
  - replace ((48 <=? 87 + d) && (87 + d <=? 57)) with false by lia. replace ((65 <=? 87 + d) && (87 + d <=? 90)) with false by lia.
    replace ((97 <=? 87 + d) && (87 + d <=? 122)) with true by lia. lia.
Qed.
Lemma print_hex_spec : forall fuel v, 0 <= v < 16 ^ Z.of_nat fuel -> (0 < fuel)%nat ->
  let h := print_hex fuel v in numeral_value 16 h = v /\ (0 < length h <= fuel)%nat /\
  Forall (fun c => digit_value c <? 16 = true /\ (48 <= c <= 57 \/ 97 <= c <= 102)) h.
Proof.
  induction fuel; intros v Hv Hf; [lia|]. cbn [print_hex]. destruct (v <? 16) eqn:E.
  - destruct (hexdigit_value v ltac:(lia)) as [D R]. cbn. rewrite D. repeat split; try lia. constructor; [|auto]. split; [rewrite D; lia|auto].
  - assert (P : 16 ^ Z.of_nat (S fuel) = 16 * 16 ^ Z.of_nat fuel) by (rewrite Nat2Z.inj_succ, Z.pow_succ_r; lia). rewrite P in Hv.
    assert (V : 0 <= v / 16 < 16 ^ Z.of_nat fuel) by (split; [apply Z.div_pos; lia|apply Z.div_lt_upper_bound; lia]).
    destruct fuel as [|f]. { cbn in V. assert (v / 16 = 0) by lia. lia. }
    destruct (IHfuel (v / 16) V ltac:(lia)) as (N & L & F). destruct (hexdigit_value (v mod 16) ltac:(lia)) as [D R].
    set (h := print_hex (S f) (v / 16)) in *. cbn zeta. split; [|split].
    + unfold numeral_value in *. rewrite fold_left_app, N. cbn [fold_left]. rewrite D. lia.
    + rewrite app_length. cbn [length]. lia.
    + apply Forall_app. split; auto. constructor; auto. split; [rewrite D; lia|auto].
Qed.
Lemma take_while_all : forall p l, Forall (fun c => p c = true) l -> take_while p l = l.
Proof. induction l; intros H; auto. inversion H; subst. cbn. rewrite H2, IHl; auto. Qed.

Lemma sgml2uni_hex : forall v rest, 0 <= v < 4294967296 ->
  sgml2uni (35 :: 120 :: print_hex 8 v ++ rest) (2 + length (print_hex 8 v)) = Ret (Some (cz [i32 v; 0])).
Proof.
  intros v rest Hv. destruct (print_hex_spec 8 v) as (N & L & F); [change (16 ^ Z.of_nat 8) with 4294967296; lia|lia|].
  set (h := print_hex 8 v) in *. clearbody h. unfold sgml2uni. replace (2 + length h <? 2)%nat with false by lia. unfold rd. cbn [nth_error obind]. ceq. cbn [negb nth_error obind].
  ceq. cbn [orb skipn]. replace (2 + length h - 2)%nat with (length h) by lia.
  assert (Zh : zstr (length h) (h ++ rest) = h).
  { rewrite zstr_firstn; rewrite firstn_app, Nat.sub_diag, firstn_all; cbn [firstn]; rewrite app_nil_r; auto. eapply Forall_impl; [|exact F]. cbn. lia. }
  assert (RN : read_numeral 16 h = Numeral false 16 h (length h)).
  { unfold read_numeral. destruct h as [|a h]; [cbn in L; lia|]. inversion F as [|x l Ha Fh E1]; subst.
    assert (W : white a = false) by (unfold white; lia). cbn [take_while drop_while]. rewrite W.
    replace (a =? 43) with false by lia. replace (a =? 45) with false by lia. change (16 =? 16) with true. cbn iota.
    replace (match h with [] => (16, 0%nat, a :: h) | x :: r => if (a =? 48) && ((x =? 120) || (x =? 88)) then (16, 2%nat, r) else (16, 0%nat, a :: h) end) with (16, 0%nat, a :: h).
    2: { destruct h as [|b h]; auto. inversion Fh; subst. replace ((a =? 48) && ((b =? 120) || (b =? 88))) with false by lia. reflexivity. }
    rewrite take_while_all by (eapply Forall_impl; [|exact F]; cbn; tauto). f_equal. }
  rewrite strtouint_spec; try lia.
  - rewrite Zh, RN. cbn [radix_of digits_of consumed obind fst]. rewrite N. unfold clamp. change (2 ^ 32) with 4294967296.
    replace (Z.max 0 (Z.min (4294967296 - 1) v)) with v by lia. reflexivity.
  - apply readable_len. rewrite app_length. lia.
  - rewrite Zh, RN. reflexivity.
Qed.

Lemma sgmlend_body : forall body rest n, Forall (fun c => 33 <= c <= 122 /\ c <> 38 /\ c <> 59) body -> (length body < n)%nat ->
  sgmlend (body ++ 59 :: rest) n = Ret (Some (length body)).
Proof.
  induction body; intros rest n F L; destruct n; cbn [length] in *; try lia.
  - reflexivity.
  - inversion F; subst. cbn [app sgmlend]. replace (a =? 59) with false by lia. replace ((a =? 0) || (a =? 38) || isspace a) with false by (unfold isspace; lia).
    rewrite IHbody by (auto; lia). reflexivity.
Qed.

Lemma expansion_in : forall name u, In (name, u) sgml_unicode -> exists u', expansion name = Some u' /\ In (name, u') sgml_unicode.
Proof.
  intros name u H. unfold expansion. destruct (find _ sgml_unicode) as [[n u']|] eqn:E.
  - apply find_some in E as [E1 E2]. cbn [fst] in E2. destruct (list_eq_dec Z.eq_dec n name); [|discriminate]. subst. exists u'. auto.
  - exfalso. apply find_none with (x := (name, u)) in E; auto. cbn [fst] in E. destruct (list_eq_dec Z.eq_dec name name); [discriminate|congruence].
Qed.

Lemma i32_u32 : forall v, -2147483648 <= v < 2147483648 -> i32 (u32 v) = v.
Proof. intros v H. unfold i32, u32. lia. Qed.

Lemma num_wstr : forall w v, num_good w v -> utf32_to_wstr w (cz [i32 (u32 v); 0]) = Ret (units w [v]).
Proof.
  intros w v H. assert (R : -2147483648 <= v < 2147483648) by (destruct w; cbn in H; lia). assert (v <> 0) by (destruct w; cbn in H; lia).
  rewrite i32_u32 by auto. unfold cz. cbn [length zstr]. replace (v =? 0) with false by lia. ceq. destruct w; auto. cbn [num_good] in H.
  cbn [utf32_to_wstr]. rewrite to16_utf16 by (constructor; auto; lia). cbn [units].
  replace (length (utf16 [v]) <=? 4)%nat with true; auto. unfold utf16. cbn [flat_map]. unfold utf16_of. destruct (v <? 65536); reflexivity.
Qed.

Lemma item_entity : forall w x, item_good w x -> (exists c, x = IChar c) \/
  exists body u, item_text x = 38 :: body ++ [59] /\ Forall (fun c => 33 <= c <= 122 /\ c <> 38 /\ c <> 59) body /\
    (forall rest, sgml2uni (body ++ 59 :: rest) (length body) = Ret (Some u)) /\ utf32_to_wstr w u = Ret (item_value w x).
Proof.
  intros w [c|name|v] H; [left; eauto|right|right]; cbn [item_good] in H.
  - destruct H as (u0 & Hi). destruct (expansion_in name u0 Hi) as (u & Eu & Iu). destruct (entry_in name u Iu) as [Hn Hu]. apply name_ok_spec in Hn as [Ln Fn].
    exists name, u. split; [reflexivity|]. split; [eapply Forall_impl; [|exact Fn]; cbn; tauto|]. split.
    + intros rest. rewrite sgml2uni_name.
      * rewrite zstr_firstn; rewrite firstn_app, Nat.sub_diag, firstn_all; cbn [firstn]; rewrite app_nil_r; [rewrite Eu; auto|]. apply nz_of_name; auto.
      * lia.
      * rewrite app_length. lia.
      * right. destruct name; [cbn in Ln; lia|]. inversion Fn; subst. cbn. lia.
    + cbn [item_value]. rewrite Eu. rewrite units_table by auto. apply wstr_table. auto.
  - assert (U : 0 <= u32 v < 4294967296) by (unfold u32; lia).
    destruct (print_hex_spec 8 (u32 v)) as (N & L & F); [change (16 ^ Z.of_nat 8) with 4294967296; lia|lia|].
    exists (35 :: 120 :: print_hex 8 (u32 v)), (cz [i32 (u32 v); 0]). split; [reflexivity|]. split.
    + constructor; [lia|]. constructor; [lia|]. eapply Forall_impl; [|exact F]. cbn. lia.
    + split; [|apply num_wstr; auto]. intros rest. exact (sgml2uni_hex (u32 v) (59 :: rest) U).
Qed.

Lemma converts_0 : forall c, converts 0 c = true.
Proof. intros. reflexivity. Qed.

Lemma skip_item : forall body rest, skipn (length body + 2) (38 :: (body ++ [59]) ++ rest) = rest.
Proof.
  intros. replace (length body + 2)%nat with (length (38 :: body ++ [59])) by (cbn [length]; rewrite app_length; cbn; lia).
  change (38 :: (body ++ [59]) ++ rest) with ((38 :: body ++ [59]) ++ rest). rewrite skipn_app, skipn_all, Nat.sub_diag. reflexivity.
Qed.

Lemma decode_item : forall w x rest n f i dst map, item_good w x ->
  exists map', sgml2str_loop (S f) w 0 (item_text x ++ rest) (length (item_text x) + n) i dst map =
    sgml2str_loop f w 0 rest n (i + length (item_text x)) (dst ++ item_value w x) map'.
Proof.
  intros w x rest n f i dst map G. destruct (item_entity w x G) as [(c & ->)|(body & u & ET & FB & HU & HW)].
  - cbn [item_good] in G. exists map. cbn [item_text app length sgml2str_loop Nat.add]. unfold rd. cbn [nth_error obind].
    assert (Ci : i8 c = c) by (unfold i8; lia). rewrite Ci. replace (c =? 38) with false by lia. cbn [obind skipn item_value].
    replace (cast_unit w c) with c by (destruct w; cbn [cast_unit]; [rewrite u16_small; lia|unfold i32; lia]). reflexivity.
  - rewrite ET. cbn [app length]. eexists. cbn [sgml2str_loop Nat.add]. unfold rd. cbn [nth_error obind]. ceq.
    unfold entity_at. cbn [skipn]. rewrite <- app_assoc. cbn [app]. rewrite sgmlend_body by (auto; rewrite app_length; cbn [length]; lia). cbn [obind].
    rewrite HU. cbn [obind]. rewrite HW. cbn [obind]. rewrite converts_0. cbn [obind].
    replace (body ++ 59 :: rest) with ((body ++ [59]) ++ rest) by (rewrite <- app_assoc; reflexivity).
    rewrite skip_item. rewrite !app_length. cbn [length].
    replace (length body + 1 + n - length body - 1)%nat with n by lia. replace (i + S (length body + 1))%nat with (i + length body + 2)%nat by lia. reflexivity.
Qed.

Lemma decode_items : forall w items rest f i dst map, Forall (item_good w) items -> (length (flat_map item_text items) < f)%nat ->
  exists map', sgml2str_loop f w 0 (flat_map item_text items ++ rest) (length (flat_map item_text items)) i dst map = Ret (dst ++ flat_map (item_value w) items, map').
Proof.
  induction items; intros rest f i dst map G L.
  - cbn [flat_map length] in *. destruct f; [lia|]. cbn. rewrite app_nil_r. eauto.
  - inversion G as [|y l Ga Gs E1]; subst. destruct f; [lia|]. cbn [flat_map] in *. rewrite app_length in L |- *. rewrite <- app_assoc.
    destruct (decode_item w a (flat_map item_text items ++ rest) (length (flat_map item_text items)) f i dst map Ga) as (map' & ->).
    assert (0 < length (item_text a))%nat by (destruct a; cbn; lia).
    destruct (IHitems rest f (i + length (item_text a))%nat (dst ++ item_value w a) map' Gs ltac:(lia)) as (map2 & ->). exists map2. rewrite <- app_assoc. reflexivity.
Qed.

Lemma item_ascii : forall w x, item_good w x -> Forall (fun c => 0 < c <= 127) (item_text x).
Proof.
  intros w x G. destruct (item_entity w x G) as [(c & ->)|(body & u & ET & FB & _)].
  - cbn [item_good] in G. cbn [item_text]. constructor; auto. unfold i8. lia.
  - rewrite ET. constructor; [lia|]. apply Forall_app. split; [eapply Forall_impl; [|exact FB]; cbn; lia|]. constructor; auto. lia.
Qed.
Lemma items_ascii : forall w items, Forall (item_good w) items -> Forall (fun c => 0 < c <= 127) (flat_map item_text items).
Proof. induction items; intros H; cbn; auto. inversion H; subst. apply Forall_app. split; auto. eapply item_ascii; eauto. Qed.

Lemma err_items : forall w items rest f i what, Forall (item_good w) items -> (length (flat_map item_text items) < f)%nat ->
  sgmlerr_loop f (flat_map item_text items ++ rest) (length (flat_map item_text items)) i what = Ret None.
Proof.
  induction items; intros rest f i what G L.
  - cbn [flat_map length] in *. destruct f; [lia|]. reflexivity.
  - inversion G as [|y l Ga Gs E1]; subst. destruct f; [lia|]. cbn [flat_map] in *. rewrite app_length in L |- *. rewrite <- app_assoc.
    pose proof (item_ascii w a Ga) as A. destruct (item_entity w a Ga) as [(c & ->)|(body & u & ET & FB & HU & HW)].
    + cbn [item_text app length sgmlerr_loop Nat.add] in *. unfold rd. cbn [nth_error obind]. cbn [item_good] in Ga.
      assert (Ci : i8 c = c) by (unfold i8; lia). rewrite Ci in *. replace (c =? 0) with false by lia. replace (c =? 38) with false by lia.
      replace (is7bit c) with true by (unfold is7bit; lia). cbn [negb]. rewrite andb_false_r. cbn [skipn]. apply IHitems; auto. lia.
    + rewrite ET in *. cbn [app length] in *. cbn [sgmlerr_loop Nat.add]. unfold rd. cbn [nth_error obind]. ceq.
      cbn [skipn]. rewrite <- app_assoc. cbn [app]. rewrite sgmlend_body by (auto; rewrite app_length; cbn [length]; lia). cbn [obind].
      rewrite HU. cbn [obind].
      replace (body ++ 59 :: (flat_map item_text items ++ rest)) with ((body ++ [59]) ++ flat_map item_text items ++ rest) by (rewrite <- app_assoc; reflexivity).
      rewrite skip_item. rewrite !app_length in *. cbn [length] in *.
      replace (length body + 1 + length (flat_map item_text items) - length body - 1)%nat with (length (flat_map item_text items)) by lia. apply IHitems; auto. lia.
Qed.
