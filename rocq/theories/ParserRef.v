(** Property C66: international bank account numbers. *)
From Coq Require Import ZifyBool ZifyNat.
From Verif Require Import Base StringModel StringSpec StringProofs ParserModel ParserSpec ParserProps ParserNumModel ParserNumProps ParserPeg ParserInt ParserIpModel ParserIp4 ParserRefModel ParserRefSpec ParserRefNum.
Ltac Zify.zify_post_hook ::= Z.div_mod_to_equations.

(** ** the country table: its keys are distinct capital letters, and the binary search finds what is there *)
Definition same_country (x y : option country) : bool :=
  match x, y with
  | Some x, Some y => (c0 x =? c0 y) && (c1 x =? c1 y) && (k0 x =? k0 y) && (k1 x =? k1 y) && (len x =? len y)
  | None, None => true
  | _, _ => false
  end.
Lemma same_country_eq : forall x y, same_country x y = true -> x = y.
Proof. intros [[]|] [[]|] H; cbn in H; try discriminate; auto. f_equal. f_equal; lia. Qed.
Definition lookup (a b : Z) : option country := find (fun d => (c0 d =? a) && (c1 d =? b)) countries.
Definition code_units : list Z := map (fun i => 65 + Z.of_nat i) (seq 0 26).
Lemma code_unit : forall a, 65 <= a <= 90 -> In a code_units.
Proof. intros a H. unfold code_units. apply in_map_iff. exists (Z.to_nat (a - 65)). split; [lia|]. apply in_seq. lia. Qed.
Lemma search_all : forallb (fun a => forallb (fun b => match find_country (length countries) 0 (length countries) a b with Ret r => same_country r (lookup a b) | _ => false end) code_units) code_units = true.
Proof. vm_compute. reflexivity. Qed.
Lemma search_spec : forall a b, 65 <= a <= 90 -> 65 <= b <= 90 -> find_country (length countries) 0 (length countries) a b = Ret (lookup a b).
Proof.
  intros a b Ha Hb. pose proof search_all as S. rewrite forallb_forall in S. specialize (S a (code_unit a Ha)). rewrite forallb_forall in S. specialize (S b (code_unit b Hb)). cbv beta in S. destruct (find_country _ _ _ a b) as [r| |]; try discriminate. f_equal. apply same_country_eq. exact S.
Qed.
Lemma table_all : forallb (fun d => same_country (Some d) (lookup (c0 d) (c1 d)) && capital (c0 d) && capital (c1 d) && (15 <=? len d) && (len d <=? 33)) countries = true.
Proof. vm_compute. reflexivity. Qed.
Lemma table_spec : forall d, In d countries -> lookup (c0 d) (c1 d) = Some d /\ capital (c0 d) = true /\ capital (c1 d) = true /\ 15 <= len d <= 33.
Proof.
  intros d H. pose proof table_all as T. rewrite forallb_forall in T. specialize (T d H). cbv beta in T. apply andb_prop in T as [T T5]. apply andb_prop in T as [T T4]. apply andb_prop in T as [T T3]. apply andb_prop in T as [T1 T2]. apply same_country_eq in T1. split; [congruence|]. split; auto. split; auto. lia.
Qed.
Lemma lookup_some : forall a b d, lookup a b = Some d -> In d countries /\ c0 d = a /\ c1 d = b.
Proof. intros a b d H. apply find_some in H as [H1 H2]. split; auto. lia. Qed.

(** ** strings in arrays *)
Lemma zstring_app : forall cs rest, Forall (fun c => cap_or_dec c = true) cs -> zstring (cs ++ 0 :: rest) = cs.
Proof. intros cs rest H. unfold zstring. induction H as [|c cs Hc H IH]; cbn [app take_while]; [reflexivity|]. replace (negb (c =? 0)) with true by (unfold cap_or_dec, is_dec, capital in Hc; lia). rewrite IH. reflexivity. Qed.
Lemma zstring_zero : forall l, l <> [] -> zstring (set_at 0 0 l) = [].
Proof. intros [|c l] H; [congruence|]. reflexivity. Qed.
Lemma app_mid : forall (A : Type) (l : list A) n, (n < length l)%nat -> exists x r, l = firstn n l ++ x :: r /\ length r = (length l - S n)%nat.
Proof. intros A l n H. destruct (skipn n l) as [|x r] eqn:E. { assert (length (skipn n l) = 0%nat) by (rewrite E; auto). rewrite skipn_length in H0. lia. } exists x, r. split; [rewrite <- E, firstn_skipn; auto|]. assert (length (skipn n l) = S (length r)) by (rewrite E; auto). rewrite skipn_length in H0. lia. Qed.

Lemma letters_le : forall l, (letters l <= length l)%nat.
Proof. unfold letters. induction l as [|c l IH]; cbn [filter length]; [lia|]. destruct (capital c); cbn [length]; lia. Qed.

Section Ref.
Context (txt : list Z) (toup : Z -> Z) (sp : option espec) (Gp : o_good txt sp).
Local Notation text_ok := (text_ok txt).
Local Notation vis := (vis txt).
Local Notation spf := (o_f sp).
Local Notation chars_at := (chars_at txt toup spf).

Lemma chars_inv : forall e fl n s cs y, chars_at e fl (S n) s cs y ->
  (vis s e <> [] /\ exists x, spf s e fl = Some x /\ chars_at e fl (S n) x cs y) \/
  (exists c r cs', vis s e = c :: r /\ spf s e fl = None /\ cap_or_dec (seen toup fl c) = true /\ cs = seen toup fl c :: cs' /\ chars_at e fl n (S s) cs' y).
Proof. intros e fl n s cs y H. inversion H; subst; [left; split; eauto|right]. do 3 eexists. eauto 6. Qed.
Lemma chars_det : forall e fl n s cs y, chars_at e fl n s cs y -> forall cs' y', chars_at e fl n s cs' y' -> cs' = cs /\ y' = y.
Proof.
  intros e fl n s cs y H. induction H as [s|n s x cs y V E H IH|n s c r cs y V E C H IH]; intros cs' y' H'; [inversion H'; auto| |]; apply chars_inv in H' as [(V' & x' & E' & H')|(c' & r' & t & V' & E' & C' & -> & H')]; try congruence.
  - apply IH. congruence.
  - rewrite V in V'. injection V' as <- <-. destruct (IH _ _ H') as [-> ->]. auto.
Qed.
Lemma chars_length : forall e fl n s cs y, chars_at e fl n s cs y -> length cs = n /\ Forall (fun c => cap_or_dec c = true) cs.
Proof. intros e fl n s cs y H. induction H as [s|n s x cs y V E H IH|n s c r cs y V E C H IH]; auto. cbn [length]. destruct IH as [-> IH]. auto. Qed.
Lemma bban_spec : forall fuel ks n L bb x e fl, advances txt spf -> o_wf sp ks -> text_ok x e -> (length (vis x e) < fuel)%nat -> (n <= L < length bb)%nat ->
  exists ks' bb' r, bban_loop txt toup fuel (o_P sp) ks n L bb x e fl = Ret (ks', bb', r) /\ o_wf sp ks' /\ length bb' = length bb /\
   match r with
   | Some y => in_vis txt x y e /\ text_ok y e /\ exists cs rest, chars_at e fl (L - n) x cs y /\ bb' = firstn n bb ++ cs ++ 0 :: rest
   | None => forall cs y, ~ chars_at e fl (L - n) x cs y
   end.
Proof.
  induction fuel as [|fuel IH]; intros ks n L bb x e fl Ad W H F B; [lia|]. cbn [bban_loop]. destruct (n <? L)%nat eqn:EL.
  2:{ assert (n = L) by lia. subst n. destruct (app_mid Z bb L ltac:(lia)) as (z & r & Eb & Lr). exists ks, (firstn L bb ++ 0 :: r), (Some x).
      assert (Sa : set_at L 0 bb = firstn L bb ++ 0 :: r) by (rewrite Eb at 1; apply set_at_mid; rewrite firstn_length; lia). rewrite Sa. split; auto. split; auto. split; [rewrite app_length, firstn_length; cbn [length]; lia|]. split; [split; lia|]. split; auto. exists [], r. rewrite Nat.sub_diag. split; [constructor|reflexivity]. }
  assert (EL' : (L - n = S (L - S n))%nat) by lia. rewrite (peek_spec txt x e H). cbn [obind]. destruct (vis x e) as [|c r] eqn:V; cbn [hd_error].
  - exists ks, bb, None. split; auto. split; auto. split; auto. intros cs y D. rewrite EL' in D. apply chars_inv in D as [(Q & _)|(c' & r' & t & Q & _)]; congruence.
  - destruct (ran_o txt sp ks x e fl Gp W H) as (k1 & -> & W1 & R). cbn [obind]. destruct (spf x e fl) as [x1|] eqn:E1; cbn [found].
    + destruct R as (_ & -> & H1 & V1). assert (x < x1)%nat by (apply (Ad x e fl x1 H); rewrite E1; auto).
      assert (L1 : (length (vis x1 e) < fuel)%nat). { destruct (vis_to txt x e x1 H V1) as [_ ->]. rewrite skipn_length. destruct V1. rewrite V in *. lia. }
      destruct (IH k1 n L bb x1 e fl Ad W1 H1 L1 B) as (ks' & bb' & r' & E & W' & Lb & Q). exists ks', bb', r'. split; auto. split; auto. split; auto. destruct r' as [y|].
      * destruct Q as (Vy & Hy & cs & rest & C & Eb). split; [apply (in_trans txt x x1); auto|]. split; auto. exists cs, rest. split; auto. rewrite EL' in *. eapply chars_space; eauto. rewrite V. discriminate.
      * intros cs y D. rewrite EL' in *. apply chars_inv in D as [(_ & x' & Q1 & D)|(c' & r2 & t & _ & Q1 & _)]; [|congruence]. apply (Q cs y). congruence.
    + change (alnum (up toup fl c)) with ((48 <=? up toup fl c) && (up toup fl c <=? 57) || (65 <=? up toup fl c) && (up toup fl c <=? 90)). fold (is_dec (up toup fl c)) (capital (up toup fl c)). fold (cap_or_dec (up toup fl c)). change (up toup fl c) with (seen toup fl c). set (k := seen toup fl c) in *. destruct (cap_or_dec k) eqn:Ck.
      * destruct (vis_cons txt x e c r H V) as (_ & H1 & V1 & _).
        destruct (app_mid Z bb n ltac:(lia)) as (z & t & Eb & Lt). assert (Sa : set_at n k bb = firstn n bb ++ k :: t) by (rewrite Eb at 1; apply set_at_mid; rewrite firstn_length; lia).
        assert (Ls : length (set_at n k bb) = length bb) by apply set_at_length.
        destruct (IH k1 (S n) L (set_at n k bb) (S x) e fl Ad W1 H1) as (ks' & bb' & r' & E & W' & Lb & Q). { rewrite V1. cbn [length] in F. lia. } { rewrite Ls. lia. }
        exists ks', bb', r'. split; auto. split; auto. split; [lia|]. destruct r' as [y|].
        -- destruct Q as (Vy & Hy & cs & rest & C & Eb'). split; [apply (in_trans txt x (S x)); auto; split; [lia|rewrite V; cbn [length]; lia]|]. split; auto. exists (k :: cs), rest. split; [rewrite EL'; eapply chars_char; eauto|].
           rewrite Eb'. rewrite Sa. rewrite firstn_app, firstn_length, (firstn_all2 (firstn n bb)) by (rewrite firstn_length; lia). replace (S n - Nat.min n (length bb))%nat with 1%nat by lia. cbn [firstn]. rewrite <- app_assoc. reflexivity.
        -- intros cs y D. rewrite EL' in D. apply chars_inv in D as [(_ & x' & Q1 & D)|(c' & r2 & t' & Q1 & _ & _ & _ & D)]; [congruence|]. eapply Q; eauto.
      * exists k1, bb, None. split; auto. split; auto. split; auto. intros cs y D. rewrite EL' in D. apply chars_inv in D as [(_ & x' & Q1 & D)|(c' & r2 & t' & Q1 & _ & Q2 & _ & D)]; [congruence|]. rewrite V in Q1. injection Q1 as <- <-. subst k. congruence.
Qed.

(** ** the two fixed parts *)
Lemma country_spec : forall co s e fl, length co = 3%nat -> text_ok s e ->
  exists co' r, country_loop txt toup 2 0 co s e fl = Ret (co', r) /\ length co' = 3%nat /\
   match r with
   | Some x => exists a b t z, vis s e = a :: b :: t /\ co' = [seen toup fl a; seen toup fl b; z] /\ capital (seen toup fl a) = true /\ capital (seen toup fl b) = true /\ x = (s + 2)%nat /\ text_ok x e /\ vis x e = t
   | None => forall a b t, vis s e = a :: b :: t -> capital (seen toup fl a) = true -> capital (seen toup fl b) = true -> False
   end.
Proof.
  intros co s e fl L H. destruct co as [|z0 [|z1 [|z2 [|]]]]; try discriminate. cbn [country_loop]. rewrite (peek_spec txt s e H). cbn [obind]. destruct (vis s e) as [|a r] eqn:V; cbn [hd_error].
  { do 2 eexists. split; [reflexivity|]. split; auto. intros; discriminate. }
  change (up toup fl a) with (seen toup fl a). set (A := seen toup fl a) in *. destruct ((A <? 65) || (90 <? A)) eqn:EA.
  { do 2 eexists. split; [reflexivity|]. split; auto. intros a' b' t' Q Qa. injection Q as <- _. fold A in Qa. unfold capital in Qa. lia. }
  destruct (vis_cons txt s e a r H V) as (_ & H1 & V1 & _). rewrite (peek_spec txt (S s) e H1), V1. cbn [obind]. destruct r as [|b r]; cbn [hd_error].
  { do 2 eexists. split; [reflexivity|]. split; auto. intros; discriminate. }
  change (up toup fl b) with (seen toup fl b). set (B := seen toup fl b) in *. destruct ((B <? 65) || (90 <? B)) eqn:EB.
  { do 2 eexists. split; [reflexivity|]. split; auto. intros a' b' t' Q Qa Qb. injection Q as <- <- _. fold B in Qb. unfold capital in Qb. lia. }
  destruct (vis_cons txt (S s) e b r H1 V1) as (_ & H2 & V2 & _). do 2 eexists. split; [reflexivity|]. split; auto. cbn [set_at]. exists a, b, r, z2. split; auto. split; auto. unfold capital. split; [lia|]. split; [lia|]. split; [lia|]. auto.
Qed.
Lemma rd_vis : forall x e, text_ok x e -> (x < e)%nat -> exists c, rd txt x = Ret c /\ (c = 0 -> vis x e = []) /\ (c <> 0 -> exists r, vis x e = c :: r).
Proof.
  intros x e H L. pose proof (peek_spec txt x e H) as P. unfold peek in P. replace (x <? e)%nat with true in P by lia. destruct (rd txt x) as [c| |]; cbn [obind] in P; try discriminate. exists c. split; auto. destruct (c =? 0) eqn:E.
  - split; [|lia]. intros _. destruct (vis x e); [auto|discriminate].
  - split; [lia|]. intros _. destruct (vis x e) as [|d r]; [discriminate|]. cbn [hd_error] in P. injection P as ->. eauto.
Qed.
Lemma check_step : forall k i cd x e, text_ok x e -> check_loop txt (S k) i cd x e =
  match vis x e with c :: _ => if is_dec c then check_loop txt k (S i) (set_at i c cd) (S x) e else Ret (cd, None) | [] => Ret (cd, None) end.
Proof.
  intros k i cd x e H. cbn [check_loop]. destruct (e <=? x)%nat eqn:E.
  - destruct (vis x e) as [|c r] eqn:V; auto. destruct (vis_cons txt x e c r H V) as (X & _). lia.
  - destruct (rd_vis x e H ltac:(lia)) as (c & -> & Z0 & Z1). cbn [obind]. destruct (Z.eq_dec c 0) as [->|N].
    + rewrite Z0 by auto. reflexivity.
    + destruct (Z1 N) as [r ->]. unfold is_dec. destruct ((c <? 48) || (57 <? c)) eqn:D; [replace ((48 <=? c) && (c <=? 57)) with false by lia|replace ((48 <=? c) && (c <=? 57)) with true by lia]; reflexivity.
Qed.
Lemma check_spec : forall cd x e, length cd = 3%nat -> text_ok x e ->
  exists cd' r, check_loop txt 2 0 cd x e = Ret (cd', r) /\ length cd' = 3%nat /\
   match r with
   | Some y => exists k l t z, vis x e = k :: l :: t /\ cd' = [k; l; z] /\ is_dec k = true /\ is_dec l = true /\ y = (x + 2)%nat /\ text_ok y e /\ vis y e = t
   | None => forall k l t, vis x e = k :: l :: t -> is_dec k = true -> is_dec l = true -> False
   end.
Proof.
  intros cd x e L H. destruct cd as [|z0 [|z1 [|z2 [|]]]]; try discriminate. rewrite (check_step _ _ _ _ _ H). destruct (vis x e) as [|k r] eqn:V. { do 2 eexists. split; [reflexivity|]. split; auto. intros; discriminate. }
  destruct (is_dec k) eqn:Ek. 2:{ do 2 eexists. split; [reflexivity|]. split; auto. intros k' l' t' Q Qk. injection Q as <- _. congruence. }
  destruct (vis_cons txt x e k r H V) as (_ & H1 & V1 & _). rewrite (check_step _ _ _ _ _ H1), V1. destruct r as [|l r]. { do 2 eexists. split; [reflexivity|]. split; auto. intros; discriminate. }
  destruct (is_dec l) eqn:El. 2:{ do 2 eexists. split; [reflexivity|]. split; auto. intros k' l' t' Q Qk Ql. injection Q as <- <- _. congruence. }
  destruct (vis_cons txt (S x) e l r H1 V1) as (_ & H2 & V2 & _). do 2 eexists. split; [reflexivity|]. split; auto. cbn [set_at]. exists k, l, r, z2. split; auto. split; auto. split; auto. split; auto. split; [lia|]. auto.
Qed.

Definition iban_wf (st : pst) : Prop := length (vals st) = 38%nat /\ exists k, kids st = [k] /\ o_wf sp k.
(** What a match gives: the members after success and after failure *)
Theorem iban_spec : advances txt spf ->
  iban_wf (p_init (iban txt toup (o_P sp))) /\
  forall st s e fl, iban_wf st -> text_ok s e -> exists st' r, p_match (iban txt toup (o_P sp)) st s e fl = Ret (st', r) /\ iban_wf st' /\
   (r = true <-> exists d k l cs y, iban_at txt toup spf e fl d k l cs s y) /\
   (r = false -> iv st' = no_iv /\ iban_country st' = [] /\ iban_check st' = [] /\ iban_bban st' = [] /\ iban_valid st' = false) /\
   (forall d k l cs y, iban_at txt toup spf e fl d k l cs s y ->
      iv st' = (s, y) /\ iban_country st' = [c0 d; c1 d] /\ iban_check st' = [k; l] /\ iban_bban st' = cs /\
      (iban_valid st' = true <-> iso_number (cs ++ [c0 d; c1 d; k; l]) mod 97 = 1)).
Proof.
  intros Ad. split. { split; [reflexivity|]. eexists. split; [reflexivity|]. apply (ini_o txt); auto. }
  intros st s e fl (L & ks & Ek & Wk) H. cbn [iban p_match]. rewrite Ek.
  set (co := firstn 3 (vals st)). set (cd := firstn 3 (skipn 3 (vals st))). set (bb := firstn 31 (skipn 6 (vals st))).
  assert (Lco : length co = 3%nat) by (subst co; rewrite firstn_length; lia). assert (Lcd : length cd = 3%nat) by (subst cd; rewrite firstn_length, skipn_length; lia). assert (Lbb : length bb = 31%nat) by (subst bb; rewrite firstn_length, skipn_length; lia).
  clearbody co cd bb.
  assert (Fields : forall s' y' a b c v ks', length a = 3%nat -> length b = 3%nat -> length c = 31%nat -> let st' := Pst s' y' (a ++ b ++ c ++ [v]) [ks'] in iban_country st' = zstring a /\ iban_check st' = zstring b /\ iban_bban st' = zstring c /\ iban_valid st' = (v =? 1) /\ length (vals st') = 38%nat).
  { clear. intros s' y' a b c v ks' La Lb Lc. cbv zeta. unfold iban_country, iban_check, iban_bban, iban_valid. cbn [vals]. rewrite !app_length, La, Lb, Lc.
    assert (E1 : firstn 3 (a ++ b ++ c ++ [v]) = a) by (rewrite <- La, firstn_app, Nat.sub_diag, firstn_all; apply app_nil_r).
    assert (E2 : skipn 3 (a ++ b ++ c ++ [v]) = b ++ c ++ [v]) by (rewrite <- La, skipn_app, Nat.sub_diag, skipn_all; reflexivity).
    assert (E3 : firstn 3 (b ++ c ++ [v]) = b) by (rewrite <- Lb, firstn_app, Nat.sub_diag, firstn_all; apply app_nil_r).
    assert (E4 : skipn 6 (a ++ b ++ c ++ [v]) = c ++ [v]). { rewrite app_assoc. replace 6%nat with (length (a ++ b)) by (rewrite app_length; lia). rewrite skipn_app, Nat.sub_diag, skipn_all. reflexivity. }
    assert (E5 : firstn 31 (c ++ [v]) = c) by (rewrite <- Lc, firstn_app, Nat.sub_diag, firstn_all; apply app_nil_r).
    rewrite E1, E2, E3, E4, E5. split; auto. split; auto. split; auto. split; auto. rewrite !app_assoc. rewrite app_nth2 by (rewrite !app_length; lia). rewrite !app_length. replace (37 - (length a + length b + length c))%nat with 0%nat by lia. reflexivity. }
  assert (Err : forall a b c ks', length a = 3%nat -> length b = 3%nat -> length c = 31%nat -> o_wf sp ks' -> (forall d k l cs y, ~ iban_at txt toup spf e fl d k l cs s y) ->
    exists st' r, Ret (Pst 1 0 (set_at 0 0 a ++ set_at 0 0 b ++ set_at 0 0 c ++ [0]) [ks'], false) = Ret (st', r) /\ iban_wf st' /\
     (r = true <-> exists d k l cs y, iban_at txt toup spf e fl d k l cs s y) /\
     (r = false -> iv st' = no_iv /\ iban_country st' = [] /\ iban_check st' = [] /\ iban_bban st' = [] /\ iban_valid st' = false) /\
     (forall d k l cs y, iban_at txt toup spf e fl d k l cs s y ->
      iv st' = (s, y) /\ iban_country st' = [c0 d; c1 d] /\ iban_check st' = [k; l] /\ iban_bban st' = cs /\
      (iban_valid st' = true <-> iso_number (cs ++ [c0 d; c1 d; k; l]) mod 97 = 1))).
  { intros a b c ks' La Lb Lc W N. destruct (Fields 1%nat 0%nat (set_at 0 0 a) (set_at 0 0 b) (set_at 0 0 c) 0 ks') as (F1 & F2 & F3 & F4 & F5); [rewrite set_at_length; auto..|].
    rewrite zstring_zero in F1, F2, F3 by (intros ->; discriminate). eexists. exists false. split; [reflexivity|]. split; [split; [exact F5|eexists; split; [reflexivity|auto]]|]. split. { split; [discriminate|]. intros (d & k & l & cs & y & D). destruct (N _ _ _ _ _ D). }
    split; [intros _; split; [reflexivity|]; auto|]. intros d k l cs y D. destruct (N _ _ _ _ _ D). }
  destruct (country_spec co s e fl Lco H) as (co1 & r1 & -> & Lc1 & R1). cbn [obind]. destruct r1 as [x1|].
  2:{ apply Err; auto. intros d k l cs y (D1 & (a & b & t & D2 & D3 & D4) & _). destruct (table_spec d D1) as (_ & T1 & T2 & _). apply (R1 a b _ D2); congruence. }
  destruct R1 as (a & b & t & z & V & -> & Ca & Cb & -> & H1 & V1). unfold rd. cbn [nth_error obind]. rewrite search_spec by (unfold capital in *; lia). cbn [obind].
  destruct (lookup (seen toup fl a) (seen toup fl b)) as [d|] eqn:Ld.
  2:{ apply Err; auto. intros d k l cs y (D1 & (a' & b' & t' & D2 & D3 & D4) & _). rewrite V in D2. injection D2 as <- <- _. destruct (table_spec d D1) as (T1 & _). congruence. }
  destruct (lookup_some _ _ _ Ld) as (Id & Ea & Eb). destruct (table_spec d Id) as (_ & _ & _ & Tl). change (set_at 2 0 [seen toup fl a; seen toup fl b; z]) with [seen toup fl a; seen toup fl b; 0].
  assert (Same : forall d' k l cs y, iban_at txt toup spf e fl d' k l cs s y -> d' = d /\ exists t', t = k :: l :: t').
  { intros d' k l cs y (D1 & (a' & b' & t' & D2 & D3 & D4) & _). rewrite V in D2. injection D2 as <- <- ->. destruct (table_spec d' D1) as (T1 & _). split; [congruence|eauto]. }
  destruct (check_spec cd (s + 2) e Lcd H1) as (cd1 & r2 & -> & Lc2 & R2). cbn [obind]. destruct r2 as [x2|].
  2:{ apply Err; auto. intros d' k l cs y D. destruct (Same _ _ _ _ _ D) as (-> & t' & ->). destruct D as (_ & _ & D3 & D4 & _). apply (R2 k l t'); auto. }
  destruct R2 as (k & l & t2 & z' & V2 & -> & Dk & Dl & -> & H2 & V3). change (set_at 2 0 [k; l; z']) with [k; l; 0]. cbn [nth_error obind].
  assert (Same2 : forall d' k' l' cs y, iban_at txt toup spf e fl d' k' l' cs s y -> d' = d /\ k' = k /\ l' = l /\ (k0 d <> 0 -> k = k0 d) /\ (k1 d <> 0 -> l = k1 d) /\ chars_at e fl (Z.to_nat (len d - 4)) (s + 4) cs y).
  { intros d' k' l' cs y D. destruct (Same _ _ _ _ _ D) as (-> & t' & Et). rewrite V1, Et in V2. injection V2 as <- <- <-. destruct D as (_ & _ & _ & _ & D5 & D6 & D7). auto 10. }
  destruct (negb (k0 d =? 0) && negb (k =? k0 d) || negb (k1 d =? 0) && negb (l =? k1 d)) eqn:EK.
  { apply Err; auto. intros d' k' l' cs y D. destruct (Same2 _ _ _ _ _ D) as (-> & -> & -> & D5 & D6 & _). lia. }
  destruct (bban_spec (S (e - (s + 2 + 2))) ks 0 (Z.to_nat (len d - 4)) bb (s + 2 + 2) e fl Ad Wk H2) as (ks1 & bb1 & r3 & -> & Wk1 & Lb1 & R3). { destruct (vis_end txt (s + 2 + 2) e H2). lia. } { lia. }
  cbn [obind]. rewrite Nat.sub_0_r in R3. replace (s + 2 + 2)%nat with (s + 4)%nat in * by lia. destruct r3 as [y|].
  2:{ apply Err; auto; [lia|]. intros d' k' l' cs y D. destruct (Same2 _ _ _ _ _ D) as (-> & -> & -> & _ & _ & D7). destruct (R3 _ _ D7). }
  destruct R3 as (Vy & Hy & cs & rest & C & Ebb). cbn [firstn app] in Ebb. destruct (chars_length _ _ _ _ _ _ C) as (Lcs & Fcs).
  assert (At : iban_at txt toup spf e fl d k l cs s y). { split; auto. split; [exists a, b, t2; rewrite V, <- V1, V2; auto|]. split; auto. split; auto. split; [lia|]. split; [lia|auto]. }
  assert (Flet : Forall (fun c => cap_or_dec c = true) [c0 d; c1 d]) by (rewrite Ea, Eb; unfold cap_or_dec; repeat constructor; rewrite ?Ca, ?Cb; apply orb_true_r).
  assert (Lets : (letters cs <= length cs)%nat) by apply letters_le.
  rewrite Ebb, put_chars_spec by (auto; cbn [length]; lia). cbn [app]. pose proof (spells_length cs Fcs) as Ls. replace (length (spells cs) <=? 69)%nat with true by lia. cbn [obind firstn put_all].
  rewrite !Ea, !Eb in *.
  rewrite put_letter_spec by (auto; lia). assert (Sp2 : forall c, capital c = true -> length (spell c) = 2%nat) by (intros c Hc; unfold spell; destruct (capital_value c Hc) as [_ ->]; reflexivity).
  rewrite app_length, (Sp2 _ Ca). replace (length (spells cs) + 2 <=? 69)%nat with true by lia. cbn [obind].
  rewrite put_letter_spec by (rewrite ?app_length, ?(Sp2 _ Ca); auto; lia). rewrite !app_length, (Sp2 _ Ca), (Sp2 _ Cb). replace (length (spells cs) + 2 + 2 <=? 69)%nat with true by lia. cbn [obind].
  rewrite put_all_spec by (rewrite !app_length, (Sp2 _ Ca), (Sp2 _ Cb); lia). change ([k; l] ++ [0]) with [k; l; 0]. rewrite (app_length _ [k; l; 0]), !app_length, (Sp2 _ Ca), (Sp2 _ Cb). cbn [length]. replace (length (spells cs) + 2 + 2 + 3 <=? 69)%nat with true by lia. cbn [obind].
  assert (Eb' : ((spells cs ++ spell (seen toup fl a)) ++ spell (seen toup fl b)) ++ [k; l; 0] = spells (cs ++ [seen toup fl a; seen toup fl b; k; l]) ++ [0]).
  { unfold spells. rewrite flat_map_app. cbn [flat_map]. assert (X : forall c, is_dec c = true -> spell c = [c]) by (intros c Hc; unfold spell; rewrite Hc; reflexivity). rewrite (X k Dk), (X l Dl). rewrite <- !app_assoc. reflexivity. }
  assert (Fall : Forall (fun c => cap_or_dec c = true) (cs ++ [seen toup fl a; seen toup fl b; k; l])). { apply Forall_app. split; auto. inversion Flet as [|? ? X1 X2]; subst. inversion X2; subst. constructor; auto. constructor; auto. unfold cap_or_dec. repeat constructor; rewrite ?Dk, ?Dl; reflexivity. }
  rewrite Eb', mod97_spec; [|intros Q; apply (f_equal (@length Z)) in Q; rewrite spells_length, app_length in Q by auto; cbn [length] in Q; lia|apply spell_dec; auto]. cbn [obind]. rewrite spells_value by auto.
  set (v := iso_number _ mod 97 =? 1).
  assert (Lbx : length (cs ++ 0 :: rest) = 31%nat) by (rewrite <- Ebb; lia).
  destruct (Fields s y [seen toup fl a; seen toup fl b; 0] [k; l; 0] (cs ++ 0 :: rest) (b2z v) ks1 eq_refl eq_refl Lbx) as (F1 & F2 & F3 & F4 & F5).
  exists (Pst s y ([seen toup fl a; seen toup fl b; 0] ++ [k; l; 0] ++ (cs ++ 0 :: rest) ++ [b2z v]) [ks1]), true. split; [reflexivity|]. split; [split; [exact F5|eexists; split; [reflexivity|auto]]|]. split; [split; eauto 10|]. split; [discriminate|].
  intros d' k' l' cs' y' D. destruct (Same2 _ _ _ _ _ D) as (-> & -> & -> & _ & _ & D7). destruct (chars_det _ _ _ _ _ _ C _ _ D7) as [-> ->].
  split; [reflexivity|]. rewrite F1, F2, F3, F4. rewrite Ea, Eb. change [seen toup fl a; seen toup fl b; 0] with ([seen toup fl a; seen toup fl b] ++ 0 :: []). change [k; l; 0] with ([k; l] ++ 0 :: []).
  rewrite !zstring_app; auto. 2:{ unfold cap_or_dec. repeat constructor; rewrite ?Dk, ?Dl; reflexivity. }
  split; auto. split; auto. split; auto. subst v. destruct (iso_number _ mod 97 =? 1) eqn:Ev; cbn [b2z]; [change (1 =? 1) with true|change (0 =? 1) with false]; lia.
Qed.
End Ref.
