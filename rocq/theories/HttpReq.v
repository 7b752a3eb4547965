(** HTTP parsers: protocols, request lines, headers. *)
From Coq Require Import ZifyBool ZifyNat.
From Verif Require Import Base StringModel StringSpec StringProofs StringTrim StringProps ParserModel ParserSpec ParserProps HtmlTagModel HtmlTagProps HttpModel HttpSpec HttpProps HttpParams HttpUrlSpec HttpUrl HttpMsgSpec HttpMsg.
Ltac Zify.zify_post_hook ::= Z.div_mod_to_equations.

(** ** Numbers *)
Lemma digits_plain : forall d, Forall digit_char d -> take_while white d = [] /\ drop_while white d = d.
Proof. intros [|c d] F; auto. inversion F; subst. unfold digit_char in *. cbn [take_while drop_while]. replace (white c) with false by (unfold white; lia). auto. Qed.
Lemma digits_all : forall d, Forall digit_char d -> take_while (fun c => digit_value c <? 10) d = d.
Proof. induction d as [|c d IH]; intros F; auto. inversion F; subst. unfold digit_char in *. cbn [take_while]. replace (digit_value c <? 10) with true. { f_equal. auto. } unfold digit_value. replace ((48 <=? c) && (c <=? 57)) with true by lia. lia. Qed.
Lemma read_digits : forall d, Forall digit_char d -> let q := read_numeral 10 d in negative q = false /\ radix_of q = 10 /\ digits_of q = d.
Proof.
  intros d F. unfold read_numeral. destruct (digits_plain d F) as [-> ->]. change (10 =? 16) with false. change (10 =? 0) with false. cbv iota.
  destruct d as [|c d]; cbn [negative radix_of digits_of]; auto. inversion F as [|? ? D F']; subst. unfold digit_char in D. replace (c =? 43) with false by lia. replace (c =? 45) with false by lia. cbn [negative radix_of digits_of]. rewrite digits_all; auto.
Qed.
Lemma number16_total : forall txt x, readable (snd x - fst x) (skipn (fst x) txt) -> exists v, number16 txt x = Ret v /\
  (forall d, zstr (snd x - fst x) (skipn (fst x) txt) = d -> Forall digit_char d -> numeral_value 10 d < 2 ^ 64 -> v = u16 (numeral_value 10 d)).
Proof.
  intros txt x R. unfold number16. destruct (read_numeral 10 (zstr (snd x - fst x) (skipn (fst x) txt))) eqn:Eq. destruct negative eqn:N.
  - unfold strtouint. destruct (strtoint_core_spec (2 ^ 64 - 1) _ _ 10 ltac:(lia) R ltac:(lia)) as (v' & E & _). rewrite E. cbn [obind]. eexists. split; [reflexivity|]. intros d E2 F. destruct (read_digits d F) as (A & _). rewrite E2 in Eq. rewrite Eq in A. discriminate.
  - rewrite strtouint_spec; auto; try lia. 2: { rewrite Eq. reflexivity. } cbn [obind]. eexists. split; [reflexivity|]. intros d E2 F B. rewrite E2. destruct (read_digits d F) as (_ & -> & ->). unfold clamp.
    assert (0 <= numeral_value 10 d) by (apply num_ge; auto; lia). f_equal. lia.
Qed.

Section Http.
Set Default Proof Using "Type".
Context (txt : list Z) (C : chars txt).
Local Notation text_ok := (ParserSpec.text_ok txt).
Local Notation vis := (ParserSpec.vis txt).

(** a part of what is seen *)
Lemma part : forall s e w r, text_ok s e -> vis s e = w ++ r -> readable (length w) (skipn s txt) /\ zstr (length w) (skipn s txt) = w.
Proof.
  clear C. intros s e w. revert s. induction w as [|c w IH]; intros s r H V. { split; [left; cbn; lia|reflexivity]. }
  cbn [app] in V. destruct (vis_next txt _ _ _ _ H V) as [T W]. destruct (IH (S s) r T W) as [A B].
  assert (L : (s < length txt)%nat). { destruct H as (_ & L1 & _). unfold vis in V. destruct (Nat.eq_dec s (length txt)) as [->|]; [|lia]. rewrite skipn_all in V. destruct (e - length txt)%nat; discriminate. }
  destruct (ParserProps.skipn_at txt s L) as (d & N & K). assert (d = c /\ d <> 0) as [-> Nz]. { unfold vis in V. rewrite K in V. destruct (e - s)%nat; [discriminate|]. cbn [zstr] in V. destruct (d =? 0) eqn:Z0; [discriminate|]. injection V as -> _. split; [auto|lia]. }
  rewrite K. cbn [length zstr]. split. { destruct A as [A|A]; [left; cbn [length]; lia|right; right; auto]. } replace (c =? 0) with false by lia. f_equal. auto.
Qed.
Lemma white_peek : forall s e, text_ok s e -> match vis s e with c :: _ => peek txt s e = Ret (Some c) | [] => peek txt s e = Ret None end.
Proof. clear C. intros s e H. rewrite (peek_spec txt s e H). destruct (vis s e); reflexivity. Qed.

Lemma sign_run : forall k w r w' r', longest (fun c => nonwhite c /\ c <> k) (w ++ r) w r -> Forall (fun c => nonwhite c /\ c <> k) w' -> stops (fun c => nonwhite c /\ c <> k) r' -> w ++ r = w' ++ r' -> w' = w /\ r' = r.
Proof.
  clear C. intros k w r w' r' L F S E. assert (L' : longest (fun c => nonwhite c /\ c <> k) (w ++ r) w' r') by (split; auto).
  assert (Q : forall c, nonwhite c /\ c <> k <-> negb (white c) && negb (c =? k) = true) by (intros c; unfold nonwhite, is_white; destruct (white c); lia). apply (longest_all _ _ _ _ _ Q) in L; apply (longest_all _ _ _ _ _ Q) in L'. destruct L as [X Y], L' as [X' Y']. split; congruence.
Qed.
Lemma white_run_det : forall w r w' r', longest nonwhite (w ++ r) w r -> Forall nonwhite w' -> stops nonwhite r' -> w ++ r = w' ++ r' -> w' = w /\ r' = r.
Proof.
  clear C. intros w r w' r' L F S E. assert (L' : longest nonwhite (w ++ r) w' r') by (split; auto).
  assert (Q : forall c, nonwhite c <-> negb (white c) = true) by (intros c; unfold nonwhite, is_white; destruct (white c); split; cbn; congruence). apply (longest_all _ _ _ _ _ Q) in L; apply (longest_all _ _ _ _ _ Q) in L'. destruct L as [X Y], L' as [X' Y']. split; congruence.
Qed.
Lemma protocol_det : forall v n maj min r n' maj' min' r', protocol_at v n maj min r -> protocol_at v n' maj' min' r' -> n' = n /\ maj' = maj /\ min' = min /\ r' = r.
Proof.
  clear C. intros v n maj min r n' maj' min' r' (F1 & F2 & (c & t & -> & Wc) & P) (F1' & F2' & (c' & t' & -> & Wc') & P').
  assert (St : forall k x, stops (fun c => nonwhite c /\ c <> k) (k :: x)) by (intros k x; cbn [stops]; intros [_ N]; congruence).
  assert (Sw : forall k d x, is_white d -> stops (fun c => nonwhite c /\ c <> k) (d :: x)) by (intros k d x W; cbn [stops]; intros [N _]; unfold nonwhite in N; tauto).
  assert (Sn : forall d x, is_white d -> stops nonwhite (d :: x)) by (intros d x W; cbn [stops]; unfold nonwhite; tauto).
  set (tl1 := match min with Some m => maj ++ 46 :: m ++ c :: t | None => maj ++ c :: t end). set (tl2 := match min' with Some m => maj' ++ 46 :: m ++ c' :: t' | None => maj' ++ c' :: t' end).
  assert (E1 : v = n ++ 47 :: tl1) by (unfold tl1; destruct min; tauto). assert (E2 : v = n' ++ 47 :: tl2) by (unfold tl2; destruct min'; tauto).
  destruct (sign_run 47 n (47 :: tl1) n' (47 :: tl2)) as [-> Et]; auto. { split; auto. } { congruence. } injection Et as Et. split; auto.
  assert (M1 : exists x, tl1 = maj ++ x /\ stops (fun c => nonwhite c /\ c <> 46) x /\ match min with Some m => x = 46 :: m ++ c :: t | None => x = c :: t end). { unfold tl1. destruct min; eexists; (split; [reflexivity|split; [auto|reflexivity]]). }
  assert (M2 : exists x, tl2 = maj' ++ x /\ stops (fun c => nonwhite c /\ c <> 46) x /\ match min' with Some m => x = 46 :: m ++ c' :: t' | None => x = c' :: t' end). { unfold tl2. destruct min'; eexists; (split; [reflexivity|split; [auto|reflexivity]]). }
  destruct M1 as (x1 & T1 & S1 & X1), M2 as (x2 & T2 & S2 & X2). destruct (sign_run 46 maj x1 maj' x2) as [-> Ex]; auto. { split; auto. } { congruence. } split; auto. subst x2.
  destruct min as [m|], min' as [m'|].
  - rewrite X1 in X2. injection X2 as X2. destruct P as [Fm _], P' as [Fm' _]. destruct (white_run_det m (c :: t) m' (c' :: t')) as [-> X]; auto. { split; auto. }
  - rewrite X1 in X2. injection X2 as <- _. unfold is_white in Wc'. discriminate.
  - rewrite X1 in X2. injection X2 as -> _. unfold is_white in Wc. discriminate.
  - rewrite X1 in X2. auto.
Qed.
Lemma protocol_case : forall s e, text_ok s e ->
  (http_protocol txt s e = Ret None /\ forall n maj min r, ~ protocol_at (vis s e) n maj min r) \/
  (exists p n maj min r, http_protocol txt s e = Ret (Some p) /\ protocol_at (vis s e) n maj min r /\ proto_is s n maj min p /\ text_ok (pr_end p) e /\ vis (pr_end p) e = r).
Proof using C.
  intros s e H. unfold http_protocol. destruct (run_case txt C (fun c => nonwhite c /\ c <> 47) (fun c => (c =? 47) || isspace c) s e H (nonsign_ok 47)) as (n & t & -> & L & T1 & V1 & U). cbn [obind]. assert (Ev : vis s e = n ++ t) by apply L.
  destruct (sign_case txt _ _ 47 T1) as (b & -> & B1 & B2). cbn [obind]. rewrite V1 in B1, B2. destruct b.
  2: { left. split; auto. intros n' maj min r (F1 & _ & _ & P). assert (exists x, vis s e = n' ++ 47 :: x) as (x & Ex) by (destruct min as [m|]; [destruct P as [_ P]|]; eexists; exact P).
       assert (n' = n /\ 47 :: x = t) as [_ E]. { apply U. split; auto. split; auto. cbn [stops]. intros [_ N]. congruence. } exact (B2 eq_refl x (eq_sym E)). }
  destruct (B1 eq_refl) as (u & -> & T2 & V2). destruct (run_case txt C (fun c => nonwhite c /\ c <> 46) (fun c => (c =? 46) || isspace c) _ e T2 (nonsign_ok 46)) as (maj & x & -> & Lm & T3 & V3 & Um). cbn [obind]. assert (Eu : u = maj ++ x) by (rewrite <- V2; apply Lm).
  assert (NP : forall n' maj' min r, protocol_at (vis s e) n' maj' min r -> n' = n /\ maj' = maj /\ match min with Some m => Forall nonwhite m /\ x = 46 :: m ++ r | None => x = r end /\ exists c y, r = c :: y /\ is_white c).
  { intros n' maj' min r (F1 & F2 & R & P). assert (E1 : exists y, vis s e = n' ++ 47 :: maj' ++ y /\ stops (fun c => nonwhite c /\ c <> 46) y /\ match min with Some m => Forall nonwhite m /\ y = 46 :: m ++ r | None => y = r end).
    { destruct min as [m|]. - destruct P as [Fm P]. exists (46 :: m ++ r). split; auto. split; auto. cbn [stops]. intros [_ N]. congruence. - exists r. split; auto. split; auto. destruct R as (c & y & -> & W). cbn [stops]. unfold nonwhite. tauto. }
    destruct E1 as (y & Ey & Sy & My). assert (n' = n /\ 47 :: maj' ++ y = 47 :: u) as [-> Eq]. { apply U. split; auto. split; auto. cbn [stops]. intros [_ N]. congruence. } injection Eq as Eq.
    assert (maj' = maj /\ y = x) as [-> ->]. { apply Um. rewrite V2. split; auto. } auto. }
  pose proof (white_peek _ _ T3) as PK. rewrite V3 in PK. destruct x as [|c x]. { left. rewrite PK. cbn [obind]. split; auto. intros n' maj' min r P. destruct (NP _ _ _ _ P) as (_ & _ & M & (c & y & -> & _)). destruct min; [destruct M as [_ M]|]; discriminate. }
  rewrite PK. cbn [obind]. clear PK. destruct (vis_next txt _ _ _ _ T3 V3) as [T4 V4]. assert (Em : u = maj ++ c :: x) by auto.
  assert (N1 : exists v1, number16 txt (S (s + length n), (S (s + length n) + length maj)%nat) = Ret v1 /\ (Forall digit_char maj -> numeral_value 10 maj < 2 ^ 64 -> v1 = u16 (numeral_value 10 maj))).
  { destruct (part _ _ maj (c :: x) T2) as [A B]. { rewrite V2. auto. } destruct (number16_total txt (S (s + length n), (S (s + length n) + length maj)%nat)) as (v1 & Q1 & Q2). { cbn [fst snd]. replace (S (s + length n) + length maj - S (s + length n))%nat with (length maj) by lia. auto. }
    exists v1. split; auto. apply Q2. cbn [fst snd]. replace (S (s + length n) + length maj - S (s + length n))%nat with (length maj) by lia. auto. }
  destruct N1 as (v1 & N1 & Q1). destruct (c =? 46) eqn:Dot.
  - assert (c = 46) by lia. subst c. destruct (run_case txt C nonwhite isspace _ e T4 nonwhite_ok) as (m & r & -> & Lw & T5 & V5 & Uw). cbn [obind]. rewrite V4 in Lw, Uw. assert (Er : x = m ++ r) by apply Lw.
    pose proof (white_peek _ _ T5) as PK. rewrite V5 in PK. destruct r as [|d r].
    + left. rewrite PK. cbn [obind]. split; auto. intros n' maj' min r P. destruct (NP _ _ _ _ P) as (_ & _ & M & (c & y & -> & W)). destruct min as [m'|]. 2: { injection M as <- _. unfold is_white in W. discriminate. }
      destruct M as [Fm M]. injection M as M. assert (m' = m /\ c :: y = []) as [_ E]. { apply Uw. rewrite M. split; auto. split; auto. cbn [stops]. unfold nonwhite. tauto. } discriminate.
    + right. rewrite PK. cbn [obind]. rewrite N1. cbn [obind]. destruct (part _ _ m (d :: r) T4) as [A B]. { rewrite V4. auto. }
      destruct (number16_total txt (S (S (s + length n) + length maj), (S (S (s + length n) + length maj) + length m)%nat)) as (v2 & N2 & Q2). { cbn [fst snd]. replace (S (S (s + length n) + length maj) + length m - S (S (s + length n) + length maj))%nat with (length m) by lia. auto. }
      rewrite N2. cbn [obind]. eexists. exists n, maj, (Some m), (d :: r). split; [reflexivity|]. cbn [pr_end]. destruct L as (_ & Fn & _), Lm as (_ & Fmaj & _), Lw as (_ & Fm & Sw). split.
      { split; auto. split; auto. split. { exists d, r. split; auto. unfold is_white. cbn [stops] in Sw. destruct (white d) eqn:Wd; auto. destruct Sw. unfold nonwhite, is_white. congruence. } split; auto. rewrite Ev, Em, Er. reflexivity. }
      split. { unfold proto_is. cbn [pr_type pr_maj pr_min pr_end pr_version]. replace (s + length n + 1)%nat with (S (s + length n)) by lia. split; auto. split; auto. split; [f_equal; lia|]. split; [lia|]. intros D1 B1' D2 B2'. rewrite Q1 by auto. rewrite (Q2 m); auto. 2: { cbn [fst snd]. replace (S (S (s + length n) + length maj) + length m - S (S (s + length n) + length maj))%nat with (length m) by lia. auto. }
        unfold u16. rewrite <- Z.add_mod_idemp_r by lia. rewrite Z.add_mod_idemp_r by lia. rewrite Z.add_mod by lia. rewrite Z.mul_mod_idemp_l by lia. rewrite <- Z.add_mod by lia. rewrite Z.add_mod_idemp_r by lia. reflexivity. }
      auto.
  - right. rewrite N1. cbn [obind]. eexists. exists n, maj, None, (c :: x). split; [reflexivity|]. cbn [pr_end]. destruct L as (_ & Fn & _), Lm as (_ & Fmaj & Sm). split.
    { split; auto. split; auto. split. { exists c, x. split; auto. unfold is_white. cbn [stops] in Sm. destruct (white c) eqn:Wd; auto. destruct Sm. split; [unfold nonwhite, is_white; congruence|lia]. } rewrite Ev, Em. reflexivity. }
    split. { unfold proto_is. cbn [pr_type pr_maj pr_min pr_end pr_version]. replace (s + length n + 1)%nat with (S (s + length n)) by lia. repeat (split; auto). intros D1 B1'. rewrite Q1 by auto. unfold u16. rewrite Z.mul_mod_idemp_l by lia. reflexivity. }
    auto.
Qed.
(** C188 *)
Theorem http_protocol_spec : forall s e, text_ok s e -> exists r, http_protocol txt s e = Ret r /\
  (forall p, r = Some p -> exists n maj min t, protocol_at (vis s e) n maj min t /\ proto_is s n maj min p) /\
  (r = None -> forall n maj min t, ~ protocol_at (vis s e) n maj min t).
Proof using C.
  intros s e H. destruct (protocol_case s e H) as [(-> & N)|(p & n & maj & min & r & -> & P & I & _)]; eexists; (split; [reflexivity|]); split; try discriminate; auto. intros p' E. injection E as <-. eauto 6.
Qed.

(** ** Lines *)
Lemma break_iff : forall v, at_break v <-> f_break v <> O.
Proof.
  clear C. intros v. unfold at_break, first_is. destruct v as [|c r]; cbn [f_break]. { split; [intros [(x & E)|(x & E)]; discriminate|congruence]. }
  destruct (c =? 13) eqn:A. { assert (c = 13) by lia. subst c. destruct r as [|d r]; cbn [hdz]. { split; [intros [(x & E)|(x & E)]; discriminate|congruence]. } destruct (d =? 10) eqn:B. { assert (d = 10) by lia. subst d. split; [discriminate|]. intros _. right. eauto. } split; [|congruence]. intros [(x & E)|(x & E)]; injection E as E; [discriminate|lia]. }
  destruct (c =? 10) eqn:B. { assert (c = 10) by lia. subst. split; [discriminate|]. eauto. } split; [|congruence]. intros [(x & E)|(x & E)]; injection E as E; lia.
Qed.
Lemma break_split : forall v, at_break v -> exists w r, break_of v w r /\ f_break v = length w.
Proof. clear C. intros v [(r & ->)|(r & ->)]. - exists [10], r. split; [split; auto|reflexivity]. - exists [13; 10], r. split; [split; auto|reflexivity]. Qed.
Lemma break_det : forall v w r w' r', break_of v w r -> break_of v w' r' -> w' = w /\ r' = r.
Proof. clear C. intros v w r w' r' (-> & [-> | ->]) (E & [-> | ->]); cbn [app] in E; try discriminate; injection E as ->; auto. Qed.
Lemma break_at : forall v w r, break_of v w r -> at_break v /\ f_break v = length w.
Proof. clear C. intros v w r (-> & [-> | ->]). - split; [left; eexists; reflexivity|reflexivity]. - split; [right; eexists; reflexivity|reflexivity]. Qed.
Lemma until_det : forall (p : Z -> Prop) v h r h' r', line_until p v h r -> line_until p v h' r' -> h' = h /\ r' = r.
Proof.
  clear C. intros p v h r h' r' (E & A & B) (E' & A' & B'). rewrite E in E'. apply app_eq_app in E'. destruct E' as (l & [(E1 & E2)|(E1 & E2)]).
  - destruct l as [|c l]. { rewrite app_nil_r in E1. cbn [app] in E2. subst. auto. } exfalso. destruct (A _ _ _ E1) as [X Y]. subst r'. destruct B' as [B'|[B'|(c' & t & Eq & B')]]; [discriminate|apply X; auto|]. injection Eq as -> _. auto.
  - destruct l as [|c l]. { rewrite app_nil_r in E1. cbn [app] in E2. subst. auto. } exfalso. destruct (A' _ _ _ E1) as [X Y]. subst r. destruct B as [B|[B|(c' & t & Eq & B)]]; [discriminate|apply X; auto|]. injection Eq as -> _. auto.
Qed.
Lemma line_case : forall (p : Z -> Prop) stop, (forall c, p c <-> stop c = true) -> forall fuel i e, text_ok i e -> (length (vis i e) < fuel)%nat ->
  exists h r, line_until p (vis i e) h r /\ text_ok (i + length h) e /\ vis (i + length h) e = r /\
    line_run txt stop fuel i e = Ret (match r with [] => LEnd (i + length h) | c :: _ => if (f_break r =? 0)%nat then LUnit (i + length h) c else LBreak (i + length h + f_break r) end) /\
    ((f_break r = 0)%nat -> match r with c :: _ => p c | [] => True end).
Proof.
  clear C. intros p stop Hp. induction fuel; intros i e H L; [lia|]. cbn [line_run]. rewrite (break_is txt i e H). cbn [obind].
  destruct (f_break (vis i e)) as [|k] eqn:B.
  - rewrite (peek_spec txt i e H). cbn [obind]. destruct (vis i e) as [|c r] eqn:V; cbn [hd_error].
    + exists [], []. cbn [length app]. rewrite Nat.add_0_r. split. { split; auto. split; auto. intros a c b E. destruct a; discriminate. } auto.
    + destruct (stop c) eqn:Sc.
      * exists [], (c :: r). cbn [length app]. rewrite Nat.add_0_r, B. cbn [Nat.eqb]. split; [|split; auto; split; auto; split; auto; intros _; apply Hp; auto].
        split; auto. split. { intros a d b E. destruct a; discriminate. } right. right. exists c, r. split; auto. apply Hp. auto.
      * destruct (vis_next txt _ _ _ _ H V) as [T W]. cbn [length] in L. destruct (IHfuel (S i) e T) as (h & r' & LU & T' & V' & E & PP). { rewrite W. lia. } exists (c :: h), r'. cbn [length]. replace (i + S (length h))%nat with (S i + length h)%nat by lia. split; auto.
        rewrite W in LU. destruct LU as (A1 & A2 & A3). split; [cbn [app]; congruence|]. split; auto. intros a d b Eh. destruct a as [|a' a]; cbn [app] in Eh.
        -- injection Eh as <- <-. split. { intros X. apply break_iff in X. rewrite <- A1 in X. congruence. } intros X. apply Hp in X. congruence.
        -- injection Eh as <- Eh. eapply A2; eauto.
  - exists [], (vis i e). cbn [length app]. rewrite Nat.add_0_r, B. cbn [Nat.eqb]. split; [|split; auto; split; auto; split; [|discriminate]].
    + split; auto. split. { intros a d b E. destruct a; discriminate. } right. left. apply break_iff. congruence.
    + destruct (vis i e); [discriminate|]. reflexivity.
Qed.
Lemma line_all_case : forall (p : Z -> Prop) stop, (forall c, p c <-> stop c = true) -> forall i e, text_ok i e ->
  exists h r, line_until p (vis i e) h r /\ text_ok (i + length h) e /\ vis (i + length h) e = r /\
    line_all txt stop i e = Ret (match r with [] => LEnd (i + length h) | c :: _ => if (f_break r =? 0)%nat then LUnit (i + length h) c else LBreak (i + length h + f_break r) end) /\
    ((f_break r = 0)%nat -> match r with c :: _ => p c | [] => True end).
Proof. clear C. intros p stop Hp i e H. apply line_case; auto. pose proof (vis_len txt i e H). lia. Qed.
End Http.
