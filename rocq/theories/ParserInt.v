(** Property C64: the integer parsers over plain digit characters, and thousand separators. *)
From Coq Require Import ZifyBool ZifyNat.
From Verif Require Import Base StringModel StringSpec StringProofs ParserModel ParserSpec ParserProps ParserNumModel ParserNumProps.
Ltac Zify.zify_post_hook ::= Z.div_mod_to_equations.

(** the digit parsers [cu(c)] for the characters [chars] *)
Definition digit_cus (txt : list Z) (tolow : Z -> Z) (chars : list Z) : list pcls := map (fun c => cu txt tolow c false) chars.
(** the place of [x] in a list *)
Fixpoint pos_of (x : Z) (l : list Z) : nat := match l with [] => 0%nat | c :: r => if x =? c then 0%nat else S (pos_of x r) end.

Section Units.
Context (txt : list Z) (tolow : Z -> Z).
Local Notation text_ok := (text_ok txt).
Local Notation vis := (vis txt).
Definition fold_of (fl : pflags) : Z -> Z := if fl_ci fl then tolow else fun c => c.
Definition cu_spec_of (c : Z) : espec :=
  ESpec (cu txt tolow c false) leaf (one_fn txt (fun x fl => if fl_ci fl then tolow x =? tolow c else x =? c) false) no_vals.
Lemma cus_good : forall chars, Forall (good txt) (map cu_spec_of chars).
Proof. induction chars; constructor; auto. apply (cu_spec txt tolow a false). Qed.
Lemma cus_advance : forall chars, Forall (fun p => advances txt (es_f p)) (map cu_spec_of chars).
Proof. induction chars; constructor; auto. intros s e fl x H E. cbn [cu_spec_of es_f] in E. unfold one_fn in E. destruct (ParserSpec.vis txt s e); [discriminate|]. destruct (xorb _ _); [|discriminate]. injection E as <-. lia. Qed.
Lemma cus_P : forall chars, map es_P (map cu_spec_of chars) = digit_cus txt tolow chars.
Proof. intros. rewrite map_map. reflexivity. Qed.
Lemma cus_branch : forall chars s e fl, branch_fn (map es_f (map cu_spec_of chars)) s e fl =
  match vis s e with c :: _ => if existsb (Z.eqb (fold_of fl c)) (map (fold_of fl) chars) then Some (S s) else None | [] => None end.
Proof.
  induction chars as [|d chars IH]; intros s e fl; cbn [map branch_fn existsb].
  - destruct (ParserSpec.vis txt s e); reflexivity.
  - cbn [cu_spec_of es_f]. unfold one_fn at 1. fold (cu_spec_of d). rewrite IH. unfold fold_of. destruct (ParserSpec.vis txt s e) as [|c r]; auto. rewrite xorb_false_r. destruct (fl_ci fl); [destruct (tolow c =? tolow d)|destruct (c =? d)]; reflexivity.
Qed.
Lemma cus_first : forall chars s e fl c r, vis s e = c :: r -> first_fn (map es_f (map cu_spec_of chars)) s e fl = pos_of (fold_of fl c) (map (fold_of fl) chars).
Proof.
  induction chars as [|d chars IH]; intros s e fl c r V; cbn [map first_fn pos_of]; auto. cbn [cu_spec_of es_f]. unfold one_fn at 1. rewrite V, xorb_false_r. rewrite (IH s e fl c r V). unfold fold_of. destruct (fl_ci fl); [destruct (tolow c =? tolow d)|destruct (c =? d)]; reflexivity.
Qed.
(** The longest run of digit characters from start on, and its value modulo 2^64. *)
Theorem integer_units : forall base chars,
  exists f g, element txt (integer txt base (digit_cus txt tolow chars)) (int_wf (map cu_spec_of chars)) f g /\ advances txt f /\
  forall s e fl, text_ok s e ->
   let fold := fold_of fl in
   let run := take_while (fun c => existsb (Z.eqb (fold c)) (map fold chars)) (vis s e) in
   f s e fl = (match run with [] => None | _ => Some (s + length run)%nat end) /\
   (run <> [] -> g s e fl = [of_digits base (map (fun c => pos_of (fold c) (map fold chars)) run) mod M64]).
Proof.
  intros base chars. destruct (integer_spec txt base (map cu_spec_of chars) (cus_good chars) (cus_advance chars)) as (f & g & El & Ad & Sp). rewrite cus_P in El. exists f, g. split; auto. split; auto.
  intros s e fl H. cbv zeta. specialize (Sp s e fl H).
  assert (M : forall n s, text_ok s e -> length (vis s e) = n -> let run := take_while (fun c => existsb (Z.eqb (fold_of fl c)) (map (fold_of fl) chars)) (vis s e) in
     digits_read (map es_f (map cu_spec_of chars)) (map (fun c => pos_of (fold_of fl c) (map (fold_of fl) chars)) run) s (s + length run) e fl /\ branch_fn (map es_f (map cu_spec_of chars)) (s + length run) e fl = None).
  { clear. induction n as [|n IH]; intros s H L; cbv zeta; destruct (vis s e) as [|c r] eqn:V; cbn [length] in L; try lia; cbn [take_while].
    - cbn [map digits_read length]. split; [lia|]. rewrite Nat.add_0_r, cus_branch, V. reflexivity.
    - destruct (existsb _ _) eqn:X.
      + destruct (vis_cons txt s e c r H V) as (_ & H' & V' & _). specialize (IH (S s) H'). rewrite V' in IH. destruct (IH ltac:(lia)) as [D N]. cbn [map digits_read length]. rewrite Nat.add_succ_r. rewrite Nat.add_succ_l in D, N. split; auto. exists (S s). rewrite cus_branch, V, X. split; auto. split; [apply (cus_first chars s e fl c r V)|exact D].
      + cbn [map digits_read length]. rewrite Nat.add_0_r. split; auto. rewrite cus_branch, V, X. reflexivity. }
  destruct (M _ s H eq_refl) as [D N]. cbv zeta in D, N. remember (take_while (fun c => existsb (Z.eqb (fold_of fl c)) (map (fold_of fl) chars)) (vis s e)) as run eqn:Er. destruct run as [|c run].
  - split; [|congruence]. destruct (f s e fl) as [y|]; auto. destruct Sp as ([|d ds] & Z & D' & _); [congruence|]. cbn [digits_read] in D'. destruct D' as (x & B & _). cbn [length] in N. rewrite Nat.add_0_r in N. congruence.
  - destruct (f s e fl) as [y|].
    + destruct Sp as (ds & Z & D' & N' & Eg). destruct (digits_det _ _ _ _ _ _ _ _ D' N' D N) as [-> ->]. auto.
    + cbn [map digits_read] in D. destruct D as (x & B & _). congruence.
Qed.
End Units.

(** Decimal: integer10 over '0'..'9'. *)
Definition dec_chars : list Z := [48; 49; 50; 51; 52; 53; 54; 55; 56; 57].
Definition hex_chars : list Z := dec_chars ++ [97; 98; 99; 100; 101; 102].
Definition is_dec (c : Z) : bool := (48 <=? c) && (c <=? 57).
Definition is_hex (c : Z) : bool := is_dec c || ((65 <=? c) && (c <=? 70)) || ((97 <=? c) && (c <=? 102)).
Lemma take_while_ext : forall p q l, (forall c, p c = q c) -> take_while p l = take_while q l.
Proof. intros p q l H. induction l as [|c l IH]; cbn [take_while]; auto. rewrite H, IH. reflexivity. Qed.
Lemma take_while_all : forall p l, Forall (fun c => p c = true) (take_while p l).
Proof. intros p l. induction l as [|c l IH]; cbn [take_while]; [constructor|]. destruct (p c) eqn:E; constructor; auto. Qed.
Lemma of_digits_numeral : forall base f l, Forall (fun c => Z.of_nat (f c) = digit_value c) l -> of_digits base (map f l) = numeral_value base l.
Proof.
  intros base f l. unfold of_digits, numeral_value. generalize 0. induction l as [|c l IH]; intros z H; cbn [map fold_left]; auto. inversion H; subst. rewrite H2. apply IH. auto.
Qed.
Ltac dec_enum c := repeat match goal with |- context[c =? ?k] => let E := fresh in destruct (c =? k) eqn:E; [try (apply Z.eqb_eq in E; subst c; reflexivity)|] end.
Theorem integer10_value : forall txt tolow,
  exists wf f g, element txt (integer10 txt (digit_cus txt tolow dec_chars)) wf f g /\ advances txt f /\ (forall s e fl x, text_ok txt s e -> f s e fl = Some x -> exists v, g s e fl = [v] /\ 0 <= v < M64) /\
  forall s e fl, text_ok txt s e -> fl_ci fl = false ->
   let run := take_while is_dec (vis txt s e) in
   f s e fl = (match run with [] => None | _ => Some (s + length run)%nat end) /\ (run <> [] -> g s e fl = [numeral_value 10 run mod M64]).
Proof.
  intros txt tolow. destruct (integer_units txt tolow 10 dec_chars) as (f & g & El & Ad & Sp). eexists. exists f, g. split; [exact El|]. split; auto.
  split. { intros s e fl x H F. specialize (Sp s e fl H). cbv zeta in Sp. destruct Sp as [S1 S2]. rewrite F in S1. destruct (take_while _ _) as [|c r] eqn:T; [discriminate|]. rewrite S2 by discriminate. eexists. split; [reflexivity|]. apply Z.mod_pos_bound. lia. }
  intros s e fl H Hc. cbv zeta. specialize (Sp s e fl H). cbv zeta in Sp.
  unfold fold_of in Sp. rewrite Hc in Sp. rewrite map_id in Sp.
  assert (E : take_while (fun c => existsb (Z.eqb c) dec_chars) (vis txt s e) = take_while is_dec (vis txt s e)).
  { apply take_while_ext. intros c. unfold is_dec, dec_chars. cbn [existsb]. lia. }
  rewrite E in Sp. destruct Sp as [S1 S2]. split; auto. intros N. rewrite S2 by auto. f_equal. f_equal. apply of_digits_numeral.
  eapply Forall_impl; [|apply take_while_all]. intros c Hd. cbv beta in Hd. unfold is_dec in Hd. unfold digit_value, dec_chars. cbn [pos_of]. rewrite Hd. dec_enum c. lia.
Qed.
(** Hexadecimal: integer16 over '0'..'9', 'a'..'f', case-insensitively. *)
Theorem integer16_value : forall txt tolow, (forall c, tolow c = if (65 <=? c) && (c <=? 90) then c + 32 else c) ->
  exists wf f g, element txt (integer16 txt (digit_cus txt tolow hex_chars)) wf f g /\ advances txt f /\
  forall s e fl, text_ok txt s e -> fl_ci fl = true ->
   let run := take_while is_hex (vis txt s e) in
   f s e fl = (match run with [] => None | _ => Some (s + length run)%nat end) /\ (run <> [] -> g s e fl = [numeral_value 16 run mod M64]).
Proof.
  intros txt tolow Hlow. destruct (integer_units txt tolow 16 hex_chars) as (f & g & El & Ad & Sp). eexists. exists f, g. split; [exact El|]. split; auto. intros s e fl H Hc. cbv zeta. specialize (Sp s e fl H). cbv zeta in Sp.
  unfold fold_of in Sp. rewrite Hc in Sp.
  assert (Em : map tolow hex_chars = hex_chars) by (unfold hex_chars, dec_chars; cbn [map app]; rewrite !Hlow; reflexivity). rewrite Em in Sp.
  assert (E : take_while (fun c => existsb (Z.eqb (tolow c)) hex_chars) (vis txt s e) = take_while is_hex (vis txt s e)).
  { apply take_while_ext. intros c. rewrite Hlow. unfold is_hex, is_dec, hex_chars, dec_chars. cbn [existsb app]. destruct ((65 <=? c) && (c <=? 90)) eqn:Q; lia. }
  rewrite E in Sp. destruct Sp as [S1 S2]. split; auto. intros N. rewrite S2 by auto. f_equal. f_equal. apply of_digits_numeral.
  eapply Forall_impl; [|apply take_while_all]. intros c Hd. cbv beta in Hd. unfold is_hex, is_dec in Hd. rewrite Hlow. unfold hex_chars, dec_chars. cbn [pos_of app].
  destruct ((65 <=? c) && (c <=? 90)) eqn:Q.
  - set (x := c + 32). assert (Ev : digit_value c = x - 87) by (unfold digit_value, x; replace ((48 <=? c) && (c <=? 57)) with false by lia; rewrite Q; lia). rewrite Ev. assert (97 <= x <= 102) by lia. clearbody x. clear -H0. dec_enum x; lia.
  - unfold digit_value. rewrite Q. dec_enum c. lia.
Qed.
