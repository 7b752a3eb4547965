(** Properties C65 and C113: the IP address parsers over plain characters; concrete cases; what fails. *)
From Coq Require Import ZifyBool ZifyNat.
From Verif Require Import Base StringModel StringSpec StringProofs ParserModel ParserSpec ParserProps ParserNumModel ParserNumProps ParserPeg ParserInt Bits MathModel MathProps ParserIpModel ParserIpSpec ParserIp4 ParserIp6 ParserEx.
Ltac Zify.zify_post_hook ::= Z.div_mod_to_equations.

Section Text4.
Context (txt : list Z) (tolow : Z -> Z).
Local Notation text_ok := (text_ok txt).
Local Notation vis := (vis txt).
Definition dec_digits : list espec := map (cu_spec_of txt tolow) dec_chars.
Definition ipv4_plain : pcls := ipv4_address txt (digit_cus txt tolow dec_chars) (cu txt tolow 46 false).
Lemma dec_branch : forall s e fl c r, fl_ci fl = false -> vis s e = c :: r -> branch_fn (map es_f dec_digits) s e fl = (if is_dec c then Some (S s) else None) /\ (is_dec c = true -> Z.of_nat (first_fn (map es_f dec_digits) s e fl) = digit_value c).
Proof.
  intros s e fl c r Hc V. unfold dec_digits. rewrite cus_branch, V, (cus_first txt tolow dec_chars s e fl c r V). unfold fold_of. rewrite Hc, map_id. split.
  - replace (existsb (Z.eqb c) dec_chars) with (is_dec c); auto. unfold is_dec, dec_chars. cbn [existsb]. lia.
  - intros Hd. unfold digit_value, dec_chars, is_dec in *. cbn [pos_of]. rewrite Hd. dec_enum c. lia.
Qed.
Lemma dec_read : forall ds s e fl rest, fl_ci fl = false -> text_ok s e -> Forall (fun c => is_dec c = true) ds -> vis s e = ds ++ rest ->
  exists ns, map Z.of_nat ns = map digit_value ds /\ digits_read (map es_f dec_digits) ns s (s + length ds) e fl /\ text_ok (s + length ds) e /\ vis (s + length ds) e = rest.
Proof.
  induction ds as [|c ds IH]; intros s e fl rest Hc H F V; cbn [app length] in *.
  - exists []. cbn [digits_read map]. rewrite Nat.add_0_r. auto.
  - inversion F as [|? ? F1 F2]; subst. destruct (vis_cons txt s e c (ds ++ rest) H V) as (_ & H' & V' & _). destruct (dec_branch s e fl c (ds ++ rest) Hc V) as [B1 B2]. rewrite F1 in B1. destruct (IH (S s) e fl rest Hc H' F2 V') as (ns & M & D & T & R).
    rewrite Nat.add_succ_l in *. rewrite Nat.add_succ_r. exists (first_fn (map es_f dec_digits) s e fl :: ns). cbn [map digits_read]. rewrite (B2 F1), M. split; auto. split; eauto.
Qed.
Lemma of_digits_map : forall base ns l, map Z.of_nat ns = map digit_value l -> of_digits base ns = numeral_value base l.
Proof.
  intros base ns l. unfold of_digits, numeral_value. generalize 0. revert l. induction ns as [|n ns IH]; intros [|c l] z M; cbn [map fold_left] in *; try discriminate; auto. injection M as E M. rewrite E. apply IH. auto.
Qed.
(** the rest does not prolong the number: it starts with no digit, or with one too many *)
Definition stops (ds rest : list Z) : Prop := match rest with c :: _ => is_dec c = true -> 255 < numeral_value 10 (ds ++ [c]) | [] => True end.
Lemma dec_group : forall ds s e fl rest, fl_ci fl = false -> text_ok s e -> ds <> [] -> Forall (fun c => is_dec c = true) ds -> numeral_value 10 ds <= 255 -> vis s e = ds ++ rest -> stops ds rest ->
  group (map es_f dec_digits) 10 255 e fl s (s + length ds) (numeral_value 10 ds) /\ text_ok (s + length ds) e /\ vis (s + length ds) e = rest.
Proof.
  intros ds s e fl rest Hc H N F L V S. destruct (dec_read ds s e fl rest Hc H F V) as (ns & M & D & T & R). split; auto. exists ns. split. { destruct ns, ds; cbn in M; congruence. } split; auto. split; [symmetry; apply of_digits_map; auto|]. split; auto.
  intros z B. destruct rest as [|c rest]. { unfold dec_digits in B. rewrite cus_branch, R in B. discriminate. }
  destruct (dec_branch _ e fl c rest Hc R) as [B1 B2]. rewrite B1 in B. destruct (is_dec c) eqn:Dc; [|discriminate]. cbn [stops] in S. rewrite (of_digits_map 10 _ (ds ++ [c])); auto. rewrite !map_app, M. cbn [map]. rewrite (B2 eq_refl). reflexivity.
Qed.
Lemma sep_step : forall s e fl k r, fl_ci fl = false -> text_ok s e -> vis s e = k :: r -> es_f (cu_spec_of txt tolow k) s e fl = Some (S s) /\ text_ok (S s) e /\ vis (S s) e = r.
Proof.
  intros s e fl k r Hc H V. destruct (vis_cons txt s e k r H V) as (_ & H' & V' & _). split; auto. cbn [cu_spec_of es_f]. unfold one_fn. rewrite V, Hc, Z.eqb_refl. reflexivity.
Qed.
(** Four decimal numbers up to 255 with dots between them are matched to the end of the fourth (or of what of it stays within 255);
    the address has the four numbers as its bytes, in this order, and the four components are where they stand.  Leading zeros
    are allowed.  No matter what the parser matched before. *)
Theorem ipv4_text : exists wf : pst -> Prop, wf (p_init ipv4_plain) /\
  forall st s e fl, wf st -> text_ok s e -> exists st' r, p_match ipv4_plain st s e fl = Ret (st', r) /\ wf st' /\
  (r = false -> vals st' = [0] /\ iv st' = no_iv /\ firstn 4 (map iv (kids st')) = repeat no_iv 4) /\
  forall a b c d rest, fl_ci fl = false -> vis s e = a ++ 46 :: b ++ 46 :: c ++ 46 :: d ++ rest ->
   Forall (fun w => w <> [] /\ Forall (fun x => is_dec x = true) w /\ numeral_value 10 w <= 255) [a; b; c; d] -> stops d rest ->
   r = true /\ iv st' = (s, s + length (a ++ 46%Z :: b ++ 46%Z :: c ++ 46%Z :: d))%nat /\
   (exists v, vals st' = [v] /\ le_bytes 4 v = map (numeral_value 10) [a; b; c; d]) /\
   let sa := s in let sb := S (sa + length a) in let sc := S (sb + length b) in let sd := S (sc + length c) in
   firstn 4 (map iv (kids st')) = [(sa, sa + length a); (sb, sb + length b); (sc, sc + length c); (sd, sd + length d)]%nat.
Proof.
  assert (Gs : good txt (cu_spec_of txt tolow 46)) by (pose proof (cus_good txt tolow [46]) as X; inversion X; auto).
  destruct (ipv4_spec txt dec_digits (cu_spec_of txt tolow 46) (cus_good txt tolow dec_chars) (cus_advance txt tolow dec_chars) Gs) as (F & [El Pa] & Sp). { reflexivity. }
  unfold dec_digits in El, Pa. rewrite cus_P in El, Pa. exists (ip4_wf dec_digits (cu_spec_of txt tolow 46)). split; [apply (el_init _ _ _ _ _ El)|].
  intros st s e fl W H. destruct (el_match _ _ _ _ _ El st s e fl W H) as (st' & E & W' & I). destruct (Pa st s e fl W H) as (st2 & E2 & V & K). unfold ipv4_plain. change (es_P (cu_spec_of txt tolow 46)) with (cu txt tolow 46 false) in *. assert (X : st2 = st') by (rewrite E in E2; congruence). subst st2. clear E2.
  exists st', (found (fst (fst (F s e fl)))). split; [exact E|]. split; auto. destruct (Sp s e fl H) as [S1 S2]. split.
  - intros R. destruct (fst (fst (F s e fl))) as [y|] eqn:Ef; [discriminate|]. assert (Z : F s e fl = (None, [0], repeat no_iv 4)). { apply S2. intros y gs D. destruct (S1 y gs D) as (v & E' & _). rewrite E' in Ef. discriminate. } rewrite Z in *. cbn [fst snd found] in *. auto.
  - intros a b c d rest Hc Vs Fa Sd. inversion Fa as [|? ? (A1 & A2 & A3) Fb]; subst. inversion Fb as [|? ? (B1 & B2 & B3) Fc]; subst. inversion Fc as [|? ? (C1 & C2 & C3) Fd]; subst. inversion Fd as [|? ? (D1 & D2 & D3) _]; subst.
    assert (Dot : forall w r, stops w (46 :: r)) by (intros w r Q; discriminate).
    destruct (dec_group a s e fl _ Hc H A1 A2 A3 Vs (Dot _ _)) as (Ga & Ha & Va). destruct (sep_step _ _ fl _ _ Hc Ha Va) as (Pa' & Ha' & Va'). set (sb := S (s + length a)) in *.
    destruct (dec_group b sb e fl _ Hc Ha' B1 B2 B3 Va' (Dot _ _)) as (Gb & Hb & Vb). destruct (sep_step _ _ fl _ _ Hc Hb Vb) as (Pb & Hb' & Vb'). set (sc := S (sb + length b)) in *.
    destruct (dec_group c sc e fl _ Hc Hb' C1 C2 C3 Vb' (Dot _ _)) as (Gc & Hcc & Vc). destruct (sep_step _ _ fl _ _ Hc Hcc Vc) as (Pc & Hc' & Vc'). set (sd := S (sc + length c)) in *.
    destruct (dec_group d sd e fl _ Hc Hc' D1 D2 D3 Vc' Sd) as (Gd & _ & _).
    destruct (S1 (sd + length d)%nat [(s, (s + length a)%nat, numeral_value 10 a); (sb, (sb + length b)%nat, numeral_value 10 b); (sc, (sc + length c)%nat, numeral_value 10 c); (sd, (sd + length d)%nat, numeral_value 10 d)]) as (v & Ev & Bv).
    { split; [reflexivity|]. cbn [row]. split; auto. split; auto. exists sb. split; auto. split; auto. split; auto. exists sc. split; auto. split; auto. split; auto. exists sd. split; auto. }
    rewrite Ev in *. cbn [fst snd found] in *. split; auto. split; [|split; [exists v; auto|exact K]]. destruct I as [I _]. rewrite I. f_equal. unfold sd, sc, sb. repeat (rewrite ?app_length; cbn [length]). lia.
Qed.
End Text4.

Section Text6.
Context (txt : list Z) (tolow : Z -> Z) (Hlow : forall c, tolow c = if (65 <=? c) && (c <=? 90) then c + 32 else c).
Local Notation text_ok := (text_ok txt).
Local Notation vis := (vis txt).
Definition hex_digits : list espec := map (cu_spec_of txt tolow) hex_chars.
Definition colon : espec := cu_spec_of txt tolow 58.
(** the plain parser: '0'..'9', 'a'..'f', ':' and an optional scope id behind a '%', of letters, digits and so on as [si] takes them *)
Definition percent : option espec := Some (cu_spec_of txt tolow 37).
Lemma colon_dis : forall x e fl, text_ok x e -> es_f colon x e fl <> None -> branch_fn (map es_f hex_digits) x e fl = None.
Proof.
  intros x e fl H C. unfold hex_digits. rewrite cus_branch. destruct (ParserSpec.vis txt x e) as [|c r] eqn:V; auto. cbn [colon cu_spec_of es_f] in C. unfold one_fn in C. rewrite V in C.
  destruct (existsb (Z.eqb (fold_of tolow fl c)) (map (fold_of tolow fl) hex_chars)) eqn:X; auto. exfalso. unfold fold_of in X. destruct (fl_ci fl).
  - rewrite !Hlow in C. destruct (((if (65 <=? c) && (c <=? 90) then c + 32 else c) =? (if (65 <=? 58) && (58 <=? 90) then 58 + 32 else 58))) eqn:E; [|apply C; reflexivity].
    unfold hex_chars, dec_chars in X. cbn [map existsb app] in X. rewrite !Hlow in X. change ((65 <=? 58) && (58 <=? 90)) with false in E. cbv iota in E. assert (c = 58) by (destruct ((65 <=? c) && (c <=? 90)) eqn:Q; lia). subst c. vm_compute in X. discriminate.
  - destruct (c =? 58) eqn:E; [|apply C; reflexivity]. assert (c = 58) by lia. subst c. vm_compute in X. discriminate.
Qed.
Definition ipv6_plain (si : option espec) : pcls := ipv6_address txt (digit_cus txt tolow hex_chars) (cu txt tolow 58 false) (o_P percent) (o_P si).
(** ipv6_spec for the plain parser, with what an IPv6 address looks like spelled by [ipv6_full] and [ipv6_short] *)
Theorem ipv6_plain_spec_partial : forall si, o_good txt si -> exists (wf : pst -> Prop) F, parses txt (ipv6_plain si) wf 9 F /\
  forall s e fl, text_ok s e -> let ok_full := ipv6_full (map es_f hex_digits) (es_f colon) 16 65535 e fl in let ok_short := ipv6_short (map es_f hex_digits) (es_f colon) 16 65535 e fl in
   snd (fst (F s e fl)) = repeat 0 8 /\
   (fst (fst (F s e fl)) <> None <-> (exists gs y, ok_full gs s y) \/ exists pre post p1 y, ok_short pre post p1 s y) /\
   (forall gs y, ok_full gs s y -> firstn 8 (snd (F s e fl)) = map g_iv gs) /\
   (forall pre post p1 y, ok_short pre post p1 s y -> firstn 8 (snd (F s e fl)) = map g_iv pre ++ repeat (p1, p1) (8 - (length pre + length post)) ++ map g_iv post).
Proof.
  intros si Gsi. assert (Gc : good txt colon) by (pose proof (cus_good txt tolow [58]) as X; inversion X; auto). assert (Gp : o_good txt percent) by (pose proof (cus_good txt tolow [37]) as X; inversion X; auto).
  destruct (ipv6_spec txt hex_digits colon (cus_good txt tolow hex_chars) (cus_advance txt tolow hex_chars) Gc eq_refl colon_dis percent si Gp Gsi) as [El Sp].
  unfold hex_digits in El. rewrite cus_P in El. eexists. eexists. split; [exact El|]. intros s e fl H. cbv zeta. destruct (Sp s e fl H) as (S1 & S2 & S3). clear Sp El. unfold hex_digits in *. set (F := ip6_fn _ _ _ _) in *.
  assert (E8 : forall (l : list (nat * nat)) x, length l = 8%nat -> firstn 8 (l ++ [x]) = l) by (intros l x L; rewrite <- L, firstn_app, firstn_all, Nat.sub_diag; apply app_nil_r).
  assert (Full : forall gs y, ipv6_full (map es_f hex_digits) (es_f colon) 16 65535 e fl gs s y -> firstn 8 (snd (F s e fl)) = map g_iv gs) by (intros gs y D; pose proof (proj1 D) as L; rewrite (S1 gs y D); apply E8; rewrite map_length; exact L).
  assert (Short : forall pre post p1 y, ipv6_short (map es_f hex_digits) (es_f colon) 16 65535 e fl pre post p1 s y -> firstn 8 (snd (F s e fl)) = map g_iv pre ++ repeat (p1, p1) (8 - (length pre + length post)) ++ map g_iv post).
  { intros pre post p1 y D. pose proof (proj1 (proj2 D)) as L. rewrite (S2 pre post p1 y D). apply E8. rewrite !app_length, !map_length, repeat_length. lia. }
  assert (Dec := ip6_cases txt hex_digits colon (cus_good txt tolow hex_chars) (cus_advance txt tolow hex_chars) Gc eq_refl colon_dis percent si s e fl H). fold hex_digits in *. fold F in Dec. clearbody F.
  split; [|split; [split|split; assumption]].
  - destruct Dec as [(gs & y & D)|[(pre & post & p1 & y & D)| ->]]; [rewrite (S1 _ _ D)|rewrite (S2 _ _ _ _ D)|]; reflexivity.
  - intros N. destruct Dec as [D|[D|D]]; auto. rewrite D in N. destruct N. reflexivity.
  - intros [(gs & y & D)|(pre & post & p1 & y & D)]; [rewrite (S1 _ _ D)|rewrite (S2 _ _ _ _ D)]; discriminate.
Qed.
End Text6.

(** ** concrete cases *)
(** "010.0.255.256": the fourth number is cut behind "25" *)
Definition ex4 : list Z := [48; 49; 48; 46; 48; 46; 50; 53; 53; 46; 50; 53; 54; 0].
Example ex_ipv4 : (let* (st, b) := p_match (ipv4_plain ex4 ex_low) (p_init (ipv4_plain ex4 ex_low)) 0 100 no_fl in Ret (iv st, vals st, firstn 4 (map iv (kids st)), b)) =
  Ret ((0, 12)%nat, [10 + 256 * 0 + 65536 * 255 + 16777216 * 25], [(0, 3); (4, 5); (6, 9); (10, 12)]%nat, true).
Proof. vm_compute. reflexivity. Qed.
Example ex_ipv4_hyp : text_ok ex4 0 100 /\ vis ex4 0 100 = [48; 49; 48] ++ 46 :: [48] ++ 46 :: [50; 53; 53] ++ 46 :: [50; 53] ++ [54] /\ stops [50; 53] [54] /\
  Forall (fun w => w <> [] /\ Forall (fun x => is_dec x = true) w /\ numeral_value 10 w <= 255) [[48; 49; 48]; [48]; [50; 53; 53]; [50; 53]].
Proof.
  split. { split; [lia|]. split; [cbn; lia|]. right. unfold ex4. cbn [skipn]. do 13 right. left. reflexivity. }
  split; [reflexivity|]. split; [intros _; reflexivity|]. repeat constructor; discriminate.
Qed.
(** "1.2.3" and then nothing: no match, all cleared *)
Example ex_ipv4_no : let t := [49; 46; 50; 46; 51; 0] in (let* (st, b) := p_match (ipv4_plain t ex_low) (p_init (ipv4_plain t ex_low)) 0 100 no_fl in Ret (iv st, vals st, firstn 4 (map iv (kids st)), b)) =
  Ret (no_iv, [0], repeat no_iv 4, false).
Proof. vm_compute. reflexivity. Qed.
(** "2001:db8::1%": three groups, five left out between positions 9 and 10; the value stays zero, though it should not *)
Definition ex6 : list Z := [50; 48; 48; 49; 58; 100; 98; 56; 58; 58; 49; 37; 0].
Example ex_ipv6 : (let* (st, b) := p_match (ipv6_plain ex6 ex_low None) (p_init (ipv6_plain ex6 ex_low None)) 0 100 no_fl in Ret (iv st, vals st, firstn 8 (map iv (kids st)), b)) =
  Ret ((0, 11)%nat, repeat 0 8, [(0, 4); (5, 8); (9, 9); (9, 9); (9, 9); (9, 9); (9, 9); (10, 11)]%nat, true).
Proof. vm_compute. reflexivity. Qed.
(** What a user expects of the value: the numbers of the groups, zero for those left out.  It is false. *)
Definition ipv6_value_claim : Prop := forall txt tolow s e fl st gs y, text_ok txt s e -> (forall c, tolow c = if (65 <=? c) && (c <=? 90) then c + 32 else c) ->
  ipv6_full (map es_f (hex_digits txt tolow)) (es_f (colon txt tolow)) 16 65535 e fl gs s y ->
  p_match (ipv6_plain txt tolow None) (p_init (ipv6_plain txt tolow None)) s e fl = Ret (st, true) -> vals st = map g_val gs.
Theorem ipv6_value_refuted : ~ ipv6_value_claim.
Proof.
  intros C. set (t := [49; 58; 49; 58; 49; 58; 49; 58; 49; 58; 49; 58; 49; 58; 49; 0]).
  assert (T : text_ok t 0 100) by (split; [lia|]; split; [cbn; lia|]; right; unfold t; cbn [skipn]; do 15 right; left; reflexivity).
  set (gs := map (fun i => (2 * i, 2 * i + 1, 1%Z)%nat) [0; 1; 2; 3; 4; 5; 6; 7]%nat).
  assert (R : exists st, p_match (ipv6_plain t ex_low None) (p_init (ipv6_plain t ex_low None)) 0 100 no_fl = Ret (st, true) /\ vals st = repeat 0 8) by (eexists; split; vm_compute; reflexivity).
  destruct R as (st & E & V). specialize (C t ex_low 0%nat 100%nat no_fl st gs 15%nat T (fun c => eq_refl)). rewrite V in C.
  assert (G : forall i, In i [0; 1; 2; 3; 4; 5; 6; 7]%nat -> group (map es_f (hex_digits t ex_low)) 16 65535 100 no_fl (2 * i) (2 * i + 1) 1).
  { intros i Hi. exists [1%nat]. split; [discriminate|]. cbn [digits_read]. cbn [In] in Hi.
    repeat match goal with H : _ \/ _ |- _ => destruct H as [<-|H] end; [..|destruct Hi].
    all: split; [eexists; split; [vm_compute; reflexivity|]; split; vm_compute; reflexivity|]; split; [reflexivity|]; split; [lia|]; vm_compute; discriminate. }
  assert (F : ipv6_full (map es_f (hex_digits t ex_low)) (es_f (colon t ex_low)) 16 65535 100 no_fl gs 0 15).
  { split; [reflexivity|]. unfold gs. cbn [map row].
    do 7 (split; [vm_compute; reflexivity|]; split; [match goal with |- group _ _ _ _ _ (2 * ?i) _ _ => apply (G i); cbn; auto 10 end|]; eexists; split; [vm_compute; reflexivity|]).
    split; [reflexivity|]. split; [apply (G 7%nat); cbn; auto 10|reflexivity]. }
  specialize (C F E). discriminate.
Qed.
Print Assumptions ipv4_text.
Print Assumptions ipv6_plain_spec_partial.
Print Assumptions ipv6_value_refuted.
