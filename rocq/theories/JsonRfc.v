(** JSON strings with the parsers one passes for RFC 8259: C132, C133. *)
From Coq Require Import ZifyBool ZifyNat.
From Verif Require Import Base StringModel StringSpec StringProofs ParserModel ParserSpec ParserProps ParserNumModel ParserNumProps ParserInt JsonModel JsonSpec JsonProps.
Ltac Zify.zify_post_hook ::= Z.div_mod_to_equations.

Lemma take_while_prefix : forall p l, exists r, l = take_while p l ++ r.
Proof. intros p l. induction l as [|c l [r IH]]; cbn [take_while]; [exists []; auto|]. destruct (p c); [exists r|eexists; reflexivity]. rewrite IH at 1. auto. Qed.

Lemma some_pair : forall (A B : Type) (a c : A) (b d : B), Some (a, b) = Some (c, d) -> a = c /\ b = d.
Proof. intros A B a c b d K. injection K as -> ->. auto. Qed.
Lemma numeral4 : forall a b c d, is_hex a = true -> is_hex b = true -> is_hex c = true -> is_hex d = true -> 0 <= numeral_value 16 [a; b; c; d] < 65536.
Proof.
  assert (D : forall a, is_hex a = true -> 0 <= digit_value a < 16). { intros a H. unfold is_hex, is_dec in H. unfold digit_value. destruct ((48 <=? a) && (a <=? 57)) eqn:?; [lia|]. destruct ((65 <=? a) && (a <=? 90)) eqn:?; [lia|]. destruct ((97 <=? a) && (a <=? 122)) eqn:?; lia. }
  intros a b c d A B C E. apply D in A, B, C, E. unfold numeral_value. cbn [fold_left]. clear -A B C E. lia.
Qed.
Section Rfc.
Context (txt : list Z) (tolow : Z -> Z) (Hlow : forall c, tolow c = if (65 <=? c) && (c <=? 90) then c + 32 else c) (narrow : bool) (cast : Z -> Z).
Local Notation text_ok := (text_ok txt).
Local Notation vis := (vis txt).
Local Notation cu_of := (cu_spec_of txt tolow).
Definition chr_spec : espec := ESpec (one_cu txt (fun c _ => jplain c) false) leaf (one_fn txt (fun c _ => jplain c) false) no_vals.
Definition esc_letters : list Z := [34; 47; 98; 102; 110; 114; 116].
(** the parser of strings, as one builds it: quotation mark, the other characters, reverse solidus, u, four digits, the letters *)
Definition rfc_string : pcls :=
  json_string txt narrow cast (cu txt tolow 34 false) (one_cu txt (fun c _ => jplain c) false) (cu txt tolow 92 false) (cu txt tolow 117 false)
    (integer16 txt (digit_cus txt tolow hex_chars)) (digit_cus txt tolow esc_letters).

Lemma cu_f : forall c s e fl, fl_ci fl = false -> es_f (cu_of c) s e fl = match vis s e with d :: _ => if d =? c then Some (S s) else None | [] => None end.
Proof. intros c s e fl Hc. cbn [cu_spec_of es_f]. unfold one_fn. rewrite Hc. destruct (ParserSpec.vis txt s e); auto. rewrite xorb_false_r. reflexivity. Qed.
Lemma cu_adv : forall c, advances txt (es_f (cu_of c)).
Proof. intros c. pose proof (cus_advance txt tolow [c]) as H. inversion H; auto. Qed.
Lemma chr_adv : advances txt (es_f chr_spec).
Proof. intros s e fl x T F. cbn [chr_spec es_f] in F. unfold one_fn in F. destruct (ParserSpec.vis txt s e); [discriminate|]. destruct (xorb _ _); [|discriminate]. injection F as <-. apply Nat.lt_succ_diag_r. Qed.
Lemma vis_app : forall t s e r, text_ok s e -> vis s e = t ++ r -> text_ok (s + length t) e /\ vis (s + length t) e = r.
Proof.
  intros t s e r T V. assert (W : (s <= s + length t <= s + length (vis s e))%nat) by (rewrite V, app_length; lia). destruct (vis_to txt s e _ T W) as [T2 V2]. split; auto.
  rewrite V2, V. replace (s + length t - s)%nat with (length t) by lia. rewrite skipn_app, skipn_all, Nat.sub_diag. auto.
Qed.
Lemma vis_fst : forall s e c r, text_ok s e -> vis s e = c :: r -> nth_error txt s = Some c /\ firstn (S s - s) (skipn s txt) = [c].
Proof.
  intros s e c r T V. destruct (vis_cons txt s e c r T V) as (_ & _ & _ & _ & N). split; auto. replace (S s - s)%nat with 1%nat by lia.
  clear -N. revert txt N. induction s; intros [|a l] N; try discriminate; cbn in *; [congruence|]. auto.
Qed.

Context (wfH : pst -> Prop) (fH : pfun) (gH : nat -> nat -> pflags -> list Z).
Let HexS : espec := ESpec (integer16 txt (digit_cus txt tolow hex_chars)) wfH fH gH.
Context (SpH : forall s e fl, text_ok s e -> fl_ci fl = true ->
   let run := take_while is_hex (vis s e) in
   fH s e fl = (match run with [] => None | _ => Some (s + length run)%nat end) /\ (run <> [] -> gH s e fl = [numeral_value 16 run mod M64])).
Local Notation unit_at := (junit_at txt narrow cast chr_spec (cu_of 92) (cu_of 117) HexS (map cu_of esc_letters)).
Local Notation value := (jtok_value (json_code narrow cast)).

Lemma plain_f : forall s e fl, text_ok s e -> jplain_at txt chr_spec s e fl = match vis s e with c :: _ => if jplain c then Some ([c], S s) else None | [] => None end.
Proof.
  intros s e fl T. unfold jplain_at. cbn [chr_spec es_f]. unfold one_fn. destruct (ParserSpec.vis txt s e) as [|c r] eqn:V; auto. rewrite xorb_false_r. destruct (jplain c); auto. destruct (vis_fst s e c r T V) as [_ ->]. auto.
Qed.
(** four digits behind \u *)
Lemma hex_f : forall z e fl, text_ok z e -> fl_ci fl = true ->
  forall y, fH z (Nat.min (z + 4) e) fl = Some y -> (y - z =? 4)%nat = true -> exists a b c d r, vis z e = a :: b :: c :: d :: r /\ jtok_ok (JUni a b c d) /\ y = (z + 4)%nat /\ nth 0 (gH z (Nat.min (z + 4) e) fl) 0 = numeral_value 16 [a; b; c; d].
Proof.
  intros z e fl T Hc y F Y. destruct (text_min txt cast z e T) as [T4 V4]. destruct (SpH z (Nat.min (z + 4) e) fl T4 Hc) as [S1 S2]. rewrite V4 in S1, S2. rewrite S1 in F.
  pose proof (take_while_all is_hex (firstn 4 (vis z e))) as Al. destruct (take_while_prefix is_hex (firstn 4 (vis z e))) as (w & Ew).
  destruct (take_while is_hex (firstn 4 (vis z e))) as [|a run] eqn:R; [discriminate|]. injection F as <-. assert (L : length run = 3%nat) by (cbn [length] in Y; lia).
  destruct run as [|b [|c [|d [|? ?]]]]; cbn [length] in L; try lia. assert (L2 : (length (firstn 4 (vis z e)) <= 4)%nat) by (rewrite firstn_length; lia). rewrite Ew in L2. cbn [app length] in L2. destruct w; cbn [length] in L2; [|lia].
  rewrite app_nil_r in Ew. exists a, b, c, d, (skipn 4 (vis z e)). split. { rewrite <- (firstn_skipn 4 (vis z e)) at 1. rewrite Ew. auto. }
  inversion Al as [|? ? A Al2]; subst. inversion Al2 as [|? ? B Al3]; subst. inversion Al3 as [|? ? C Al4]; subst. inversion Al4 as [|? ? D Al5]; subst. split; [cbn; auto|]. split; [cbn [length]; lia|].
  rewrite S2 by discriminate. cbn [nth]. apply Z.mod_small. pose proof (numeral4 a b c d A B C D). lia.
Qed.
Lemma hex_conv : forall z e fl a b c d r, text_ok z e -> fl_ci fl = true -> vis z e = a :: b :: c :: d :: r -> jtok_ok (JUni a b c d) ->
  fH z (Nat.min (z + 4) e) fl = Some (z + 4)%nat /\ nth 0 (gH z (Nat.min (z + 4) e) fl) 0 = numeral_value 16 [a; b; c; d].
Proof.
  intros z e fl a b c d r T Hc V (A & B & C & D). destruct (text_min txt cast z e T) as [T4 V4]. destruct (SpH z (Nat.min (z + 4) e) fl T4 Hc) as [S1 S2]. rewrite V4, V in S1, S2. cbn [firstn take_while] in S1, S2. rewrite A, B, C, D in S1, S2. split; [exact S1|].
  rewrite S2 by discriminate. cbn [nth]. apply Z.mod_small. pose proof (numeral4 a b c d A B C D). lia.
Qed.
Lemma letters_branch : forall s e fl, fl_ci fl = false -> branch_fn (map es_f (map cu_of esc_letters)) s e fl = match vis s e with l :: _ => if existsb (Z.eqb l) esc_letters then Some (S s) else None | [] => None end.
Proof. intros s e fl Hc. rewrite cus_branch. unfold fold_of. rewrite Hc. rewrite map_id. reflexivity. Qed.
Lemma letter_value : forall l, existsb (Z.eqb l) esc_letters = true -> In (l, nth (pos_of l esc_letters) escaped_chars 0) jescapes /\ value (JEsc l) = [nth (pos_of l esc_letters) escaped_chars 0].
Proof. intros l H. cbn [esc_letters existsb] in H. repeat (apply orb_prop in H as [H|H]; [apply Z.eqb_eq in H; subst l; split; [cbn; auto 10|reflexivity]|]). discriminate. Qed.
Lemma letter_first : forall s e fl l r, fl_ci fl = false -> vis s e = l :: r -> first_fn (map es_f (map cu_of esc_letters)) s e fl = pos_of l esc_letters.
Proof. intros s e fl l r Hc V. rewrite (cus_first txt tolow esc_letters s e fl l r V). unfold fold_of. rewrite Hc, map_id. auto. Qed.

Lemma unit_sound : forall s e fl u x, text_ok s e -> fl_ci fl = false -> unit_at s e fl = Some (u, x) ->
  exists t r, vis s e = jtok_text t ++ r /\ jtok_ok t /\ u = value t /\ x = (s + length (jtok_text t))%nat.
Proof.
  intros s e fl u x T Hc K. unfold junit_at in K. rewrite (plain_f s e fl T), (cu_f 92 s e fl Hc) in K. destruct (vis s e) as [|c r] eqn:V; [discriminate|].
  assert (Pl : (if jplain c then Some ([c], S s) else None) = Some (u, x) -> exists t r0, c :: r = jtok_text t ++ r0 /\ jtok_ok t /\ u = value t /\ x = (s + length (jtok_text t))%nat).
  { destruct (jplain c) eqn:J; [|discriminate]. intros K'. injection K' as <- <-. exists (JPlain c), r. cbn. auto using Nat.add_1_r. }
  destruct (c =? 92) eqn:E; [|auto]. assert (c = 92) by lia. subst c. clear E. destruct (vis_cons txt s e 92 r T V) as (_ & T2 & V2 & _). rewrite (letters_branch (S s) e fl Hc), V2 in K.
  destruct r as [|l r].
  - assert (Ju : junicode_at narrow cast (cu_of 117) HexS (S s) e fl = None) by (unfold junicode_at; rewrite (cu_f 117 (S s) e fl Hc), V2; auto). rewrite Ju in K. rewrite (cu_f 92 (S s) e fl Hc), V2 in K. auto.
  - destruct (existsb (Z.eqb l) esc_letters) eqn:Le.
    + rewrite (letter_first (S s) e fl l r Hc V2) in K. injection K as <- <-. destruct (letter_value l Le) as [I1 I2]. exists (JEsc l), r. split; auto. split; [eexists; exact I1|]. split; auto. cbn [jtok_text length]. lia.
    + unfold junicode_at in K. rewrite (cu_f 117 (S s) e fl Hc), V2 in K. destruct (l =? 117) eqn:El.
      * assert (l = 117) by lia. subst l. destruct (vis_cons txt (S s) e 117 r T2 V2) as (_ & T3 & V3 & _). change (es_f HexS) with fH in K. change (es_g HexS) with gH in K. destruct (fH (S (S s)) (Nat.min (S (S s) + 4) e) (PFlags true (fl_ml fl))) as [y|] eqn:Fh.
        -- destruct (y - S (S s) =? 4)%nat eqn:Y.
           ++ apply some_pair in K as [<- <-]. destruct (hex_f (S (S s)) e (PFlags true (fl_ml fl)) T3 eq_refl y Fh Y) as (a & b & c & d & r' & V4 & J & -> & G). rewrite V3 in V4. exists (JUni a b c d), r'. split; [rewrite V4; auto|]. split; auto. cbn [jtok_value jtok_text length]. rewrite G. split; auto. lia.
           ++ rewrite (cu_f 92 (S s) e fl Hc), V2 in K. change (117 =? 92) with false in K. cbv iota in K. auto.
        -- rewrite (cu_f 92 (S s) e fl Hc), V2 in K. change (117 =? 92) with false in K. cbv iota in K. auto.
      * rewrite (cu_f 92 (S s) e fl Hc), V2 in K. destruct (l =? 92) eqn:El2; [|auto]. assert (l = 92) by lia. subst l. injection K as <- <-. exists (JEsc 92), r. split; auto. split; [exists 92; cbn; auto|]. split; auto. cbn [jtok_text length]. lia.
Qed.
Lemma unit_complete : forall s e fl t r, text_ok s e -> fl_ci fl = false -> vis s e = jtok_text t ++ r -> jtok_ok t ->
  es_f (cu_of 34) s e fl = None /\ unit_at s e fl = Some (value t, (s + length (jtok_text t))%nat).
Proof.
  intros s e fl t r T Hc V J. rewrite (cu_f 34 s e fl Hc). unfold junit_at. rewrite (plain_f s e fl T), (cu_f 92 s e fl Hc), V. destruct t as [c|l|a b c d]; cbn [jtok_text app length jtok_value] in *.
  - cbn [jtok_ok] in J. rewrite J. unfold jplain in J. replace (c =? 34) with false by lia. replace (c =? 92) with false by lia. split; auto. do 2 f_equal. lia.
  - split; auto. change (92 =? 92) with true. cbv iota. destruct (vis_cons txt s e 92 (l :: r) T V) as (_ & T2 & V2 & _). rewrite (letters_branch (S s) e fl Hc), V2. destruct J as (v & J). destruct (existsb (Z.eqb l) esc_letters) eqn:Le.
    + rewrite (letter_first (S s) e fl l r Hc V2). destruct (letter_value l Le) as [_ I2]. cbn [jtok_value] in I2. rewrite I2. do 2 f_equal. lia.
    + assert (l = 92). { cbn [jescapes In] in J. repeat (destruct J as [J|J]; [injection J as <- <-; try reflexivity; discriminate Le|]). destruct J. } subst l.
      unfold junicode_at. rewrite (cu_f 117 (S s) e fl Hc), (cu_f 92 (S s) e fl Hc), V2. replace (s + 2)%nat with (S (S s)) by lia. reflexivity.
  - split; auto. change (92 =? 92) with true. cbv iota. destruct (vis_cons txt s e 92 _ T V) as (_ & T2 & V2 & _). rewrite (letters_branch (S s) e fl Hc), V2. change (existsb (Z.eqb 117) esc_letters) with false. cbv iota.
    destruct (vis_cons txt (S s) e 117 _ T2 V2) as (_ & T3 & V3 & _). unfold junicode_at. rewrite (cu_f 117 (S s) e fl Hc), V2. change (117 =? 117) with true. cbv iota. change (es_f HexS) with fH. change (es_g HexS) with gH.
    destruct (hex_conv (S (S s)) e (PFlags true (fl_ml fl)) a b c d r T3 eq_refl V3 J) as [F G]. rewrite F. replace (S (S s) + 4 - S (S s) =? 4)%nat with true by lia. rewrite G. do 2 f_equal. lia.
Qed.
Local Notation rest := (jrest txt narrow cast (cu_of 34) chr_spec (cu_of 92) (cu_of 117) HexS (map cu_of esc_letters)).
Lemma rest_sound : forall e fl s v y, fl_ci fl = false -> rest e fl s v y -> text_ok s e ->
  exists ts r, vis s e = flat_map jtok_text ts ++ 34 :: r /\ Forall jtok_ok ts /\ v = flat_map value ts /\ y = (s + length (flat_map jtok_text ts) + 1)%nat.
Proof.
  intros e fl s v y Hc J. induction J as [s y F|s u x v y F N J IH]; intros T.
  - rewrite (cu_f 34 s e fl Hc) in F. destruct (vis s e) as [|c r] eqn:V; [discriminate|]. destruct (c =? 34) eqn:E; [|discriminate]. injection F as <-. exists [], r. cbn. replace c with 34 by lia. split; auto. split; auto. split; auto. lia.
  - destruct (unit_sound s e fl u x T Hc N) as (t & r & V & O & -> & ->). destruct (vis_app _ s e r T V) as [T2 V2]. destruct (IH T2) as (ts & r' & V3 & O2 & -> & ->). rewrite V2 in V3. exists (t :: ts), r'. cbn [flat_map]. rewrite V, V3, <- app_assoc. split; auto. split; auto. split; auto. rewrite app_length. lia.
Qed.
Lemma rest_complete : forall e fl ts s r, fl_ci fl = false -> text_ok s e -> Forall jtok_ok ts -> vis s e = flat_map jtok_text ts ++ 34 :: r -> rest e fl s (flat_map value ts) (s + length (flat_map jtok_text ts) + 1)%nat.
Proof.
  intros e fl ts. induction ts as [|t ts IH]; intros s r Hc T O V; cbn [flat_map] in *.
  - apply jr_end. rewrite (cu_f 34 s e fl Hc), V. cbn [app length]. replace (s + 0 + 1)%nat with (S s) by lia. reflexivity.
  - inversion O; subst. rewrite <- app_assoc in V. destruct (unit_complete s e fl t _ T Hc V) as [N U]; auto. destruct (vis_app _ s e _ T V) as [T2 V2]. rewrite app_length. replace (s + (length (jtok_text t) + length (flat_map jtok_text ts)) + 1)%nat with (s + length (jtok_text t) + length (flat_map jtok_text ts) + 1)%nat by lia.
    eapply jr_unit; eauto.
Qed.
End Rfc.

(** C132: with case-sensitive matching, the parser recognises a quotation mark, characters as RFC 8259 has them, and a quotation
    mark, and its value is what these stand for; it recognises nothing else. *)
Theorem json_rfc : forall txt tolow narrow cast, (forall c, tolow c = if (65 <=? c) && (c <=? 90) then c + 32 else c) ->
  exists wf f g, element txt (rfc_string txt tolow narrow cast) wf f g /\
  forall s e fl, text_ok txt s e -> fl_ci fl = false ->
    (forall y, f s e fl = Some y <-> exists ts r, vis txt s e = 34 :: flat_map jtok_text ts ++ 34 :: r /\ Forall jtok_ok ts /\ y = (s + length (flat_map jtok_text ts) + 2)%nat) /\
    (forall ts r, vis txt s e = 34 :: flat_map jtok_text ts ++ 34 :: r -> Forall jtok_ok ts -> g s e fl = flat_map (jtok_value (json_code narrow cast)) ts).
Proof.
  intros txt tolow narrow cast Hlow. destruct (integer16_value txt tolow Hlow) as (wfH & fH & gH & El & _ & Sp).
  destruct (json_generic txt narrow cast (cu_spec_of txt tolow 34) (chr_spec txt) (cu_spec_of txt tolow 92) (cu_spec_of txt tolow 117) (ESpec (integer16 txt (digit_cus txt tolow hex_chars)) wfH fH gH) (map (cu_spec_of txt tolow) esc_letters)) as (f & g & G & Sg).
  { apply cu_spec. } { apply one_cu_spec. } { apply cu_spec. } { apply cu_spec. } { exact El. } { apply cus_good. } { apply chr_adv. } { apply cu_adv. }
  rewrite cus_P in G. eexists. exists f, g. split; [exact G|]. intros s e fl T Hc. specialize (Sg s e fl T). rewrite (cu_f txt tolow 34 s e fl Hc) in Sg.
  assert (Con : forall ts r, vis txt s e = 34 :: flat_map jtok_text ts ++ 34 :: r -> Forall jtok_ok ts -> f s e fl = Some (s + length (flat_map jtok_text ts) + 2)%nat /\ g s e fl = flat_map (jtok_value (json_code narrow cast)) ts).
  { intros ts r V O. destruct (vis_cons txt s e _ _ T V) as (_ & T2 & V2 & _). pose proof (rest_complete txt tolow Hlow narrow cast wfH fH gH Sp e fl ts (S s) r Hc T2 O V2) as R. rewrite V in Sg. change (34 =? 34) with true in Sg. cbv iota in Sg. destruct (f s e fl) as [y|].
    - destruct Sg as (x & E & J). injection E as <-. destruct (jrest_det _ _ _ _ _ _ _ _ _ _ _ _ _ _ J _ _ R) as [E1 E2]. rewrite E1, E2. split; auto. f_equal. lia.
    - exfalso. exact (Sg _ _ _ eq_refl R). }
  split.
  - intros y. split.
    + intros F. rewrite F in Sg. destruct Sg as (x & E & J). destruct (vis txt s e) as [|c r] eqn:V; [discriminate|]. destruct (c =? 34) eqn:Ec; [|discriminate]. injection E as <-. assert (c = 34) by lia. subst c. destruct (vis_cons txt s e _ _ T V) as (_ & T2 & V2 & _).
      destruct (rest_sound txt tolow Hlow narrow cast wfH fH gH Sp e fl _ _ _ Hc J T2) as (ts & r' & V3 & O & _ & ->). rewrite V2 in V3. exists ts, r'. split; [rewrite V3; auto|]. split; auto. lia.
    + intros (ts & r & V & O & ->). apply (Con ts r V O).
  - intros ts r V O. apply (Con ts r V O).
Qed.
Print Assumptions json_rfc.

(** the same over the units of a narrow string: what is stored for \uXXXX is the UTF-8 of that code point ... *)
Lemma lor_add : forall n h v, 0 <= n -> 0 <= v < 2 ^ n -> Z.lor (h * 2 ^ n) v = h * 2 ^ n + v.
Proof.
  intros n h v N V. assert (L : Z.land (h * 2 ^ n) v = 0); [|rewrite Z.add_nocarry_lxor by auto; symmetry; apply Z.lxor_lor; auto]. apply Z.bits_inj'. intros k K. rewrite Z.land_spec, Z.bits_0. destruct (Z.ltb_spec k n).
  - rewrite <- Z.shiftl_mul_pow2 by auto. rewrite Z.shiftl_spec_low by auto. auto.
  - rewrite <- (Z.mod_small v (2 ^ n)) by auto. rewrite Z.mod_pow2_bits_high by lia. apply andb_false_r.
Qed.
Lemma land_mask : forall n v, 0 <= n -> Z.land v (2 ^ n - 1) = v mod 2 ^ n.
Proof. intros n v N. rewrite <- Z.land_ones by auto. rewrite Z.ones_equiv. auto. Qed.
Theorem json_code_utf8 : forall cast v, 0 <= v < 65536 -> json_code true cast v = map cast (utf8_bmp v).
Proof.
  intros cast v V. unfold json_code, utf8_bmp. cbv iota.
  change 0x3f with (2 ^ 6 - 1). change 0x0f with (2 ^ 4 - 1). change 0x1f with (2 ^ 5 - 1). change 0x7f with (2 ^ 7 - 1). change 0x7ff with (2 ^ 11 - 1). rewrite !land_mask by lia.
  rewrite !Z.shiftr_div_pow2 by lia. change (2 ^ 6) with 64. change (2 ^ 12) with 4096. change (2 ^ 4) with 16. change (2 ^ 5) with 32. change (2 ^ 7) with 128. change (2 ^ 11 - 1) with 2047. change (128 - 1) with 127.
  assert (L80 : forall x, Z.lor 128 (x mod 64) = 128 + x mod 64). { intros x. apply (lor_add 6 2 (x mod 64)); lia. }
  assert (Le0 : forall x, Z.lor 224 (x mod 16) = 224 + x mod 16). { intros x. apply (lor_add 4 14 (x mod 16)); lia. }
  assert (Lc0 : forall x, Z.lor 192 (x mod 32) = 192 + x mod 32). { intros x. apply (lor_add 5 6 (x mod 32)); lia. }
  change 0x80 with 128. change 0xe0 with 224. change 0xc0 with 192. rewrite !L80, Le0, Lc0.
  destruct (2047 <? v) eqn:A. { replace (v <? 128) with false by lia. replace (v <? 2048) with false by lia. replace (v / 4096 mod 16) with (v / 4096) by lia. reflexivity. }
  destruct (127 <? v) eqn:B. { replace (v <? 128) with false by lia. replace (v <? 2048) with true by lia. replace (v / 64 mod 32) with (v / 64) by lia. reflexivity. }
  replace (v <? 128) with true by lia. replace (v mod 128) with v by lia. reflexivity.
Qed.
Theorem json_code_wide : forall cast v, json_code false cast v = [cast v].
Proof. reflexivity. Qed.
(** C133: ... so the value of a narrow string is the characters, and UTF-8 for the escapes, *)
Theorem json_narrow_value : forall cast ts, Forall jtok_ok ts -> flat_map (jtok_value (json_code true cast)) ts = flat_map (jtok_value (fun v => map cast (utf8_bmp v))) ts.
Proof.
  intros cast ts H. induction H as [|t ts O H IH]; auto. cbn [flat_map]. rewrite IH. f_equal. destruct t as [c|l|a b c d]; auto. destruct O as (A & B & C & D). cbn [jtok_value]. apply json_code_utf8. apply numeral4; auto.
Qed.
(** C134: text without surrogates comes out as UTF-8 *)
Definition surrogate (v : Z) : bool := (0xd800 <=? v) && (v <=? 0xdfff).
Definition no_surrogates (t : jtok) : bool := match t with JUni a b c d => negb (surrogate (numeral_value 16 [a; b; c; d])) | _ => true end.
Theorem json_utf8_partial : forall cast ts, Forall jtok_ok ts -> forallb no_surrogates ts = true -> flat_map (jtok_value (json_code true cast)) ts = flat_map (jtok_value (fun v => map cast (utf8_bmp v))) ts.
Proof. intros cast ts H _. apply json_narrow_value. auto. Qed.
(** and a pair of surrogates, which is how JSON writes a character beyond the basic plane, becomes two times three bytes, which
    is not UTF-8: U+1F600, which is F0 9F 98 80 in UTF-8, written \ud83d\ude00 *)
Theorem json_surrogates_refuted :
  let ts := [JUni 100 56 51 100; JUni 100 101 48 48] in
  Forall jtok_ok ts /\ flat_map (jtok_value (json_code true (fun c => c))) ts = [237; 160; 189; 237; 184; 128] /\ [237; 160; 189; 237; 184; 128] <> [240; 159; 152; 128].
Proof. split; [repeat constructor|]. split; [reflexivity|vm_compute; discriminate]. Qed.
(** the value of the example string "a\n\u00e9" matched from position 0: the quotation marks, the tokens and 12 units *)
Theorem json_example :
  exists st, p_match (rfc_string [34; 97; 92; 110; 92; 117; 48; 48; 101; 57; 34; 44] (fun c => if (65 <=? c) && (c <=? 90) then c + 32 else c) true (fun c => c))
    (p_init (rfc_string [34; 97; 92; 110; 92; 117; 48; 48; 101; 57; 34; 44] (fun c => if (65 <=? c) && (c <=? 90) then c + 32 else c) true (fun c => c))) 0 12 (PFlags false false) = Ret (st, true) /\
    iv st = (0, 11)%nat /\ vals st = [97; 10; 195; 169].
Proof. eexists. split; [vm_compute; reflexivity|]. split; reflexivity. Qed.
Print Assumptions json_rfc. Print Assumptions json_code_utf8. Print Assumptions json_narrow_value. Print Assumptions json_utf8_partial. Print Assumptions json_surrogates_refuted. Print Assumptions json_example.
