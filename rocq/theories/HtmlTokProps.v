(** HTML tokens: tags, and what link makes of texts. *)
From Coq Require Import ZifyBool ZifyNat.
From Verif Require Import Base StringModel StringSpec StringProofs StringProps SgmlSpec SgmlModel SgmlRound HtmlEscModel HtmlEscProps HtmlTagModel HtmlTagProps HtmlElemModel HtmlDocModel HtmlTokModel.
Ltac Zify.zify_post_hook ::= Z.div_mod_to_equations.

(** ** Tags *)
Lemma hexd_value : forall d, 0 <= d < 16 -> digit_value (hexd d) = d /\ (48 <= hexd d <= 57 \/ 65 <= hexd d <= 70).
Proof.
  intros d H. unfold hexd, digit_value. destruct (d <? 10) eqn:E.
  - replace ((48 <=? 48 + d) && (48 + d <=? 57)) with true by lia. lia.
  - replace ((48 <=? 55 + d) && (55 + d <=? 57)) with false by lia. replace ((65 <=? 55 + d) && (55 + d <=? 90)) with true by lia. lia.
Qed.
Lemma hexu_spec : forall fuel v, 0 <= v < 16 ^ Z.of_nat fuel -> (0 < fuel)%nat ->
  let h := hexu fuel v in numeral_value 16 h = v /\ (0 < length h <= fuel)%nat /\ Forall (fun c => digit_value c <? 16 = true /\ (48 <= c <= 57 \/ 65 <= c <= 70)) h.
Proof.
  induction fuel; intros v Hv Hf; [lia|]. cbn [hexu]. destruct (v <? 16) eqn:E.
  - destruct (hexd_value v ltac:(lia)) as [D R]. cbn. rewrite D. repeat split; try lia. constructor; [|auto]. split; [rewrite D; lia|auto].
  - assert (P : 16 ^ Z.of_nat (S fuel) = 16 * 16 ^ Z.of_nat fuel) by (rewrite Nat2Z.inj_succ, Z.pow_succ_r; lia). rewrite P in Hv.
    assert (V : 0 <= v / 16 < 16 ^ Z.of_nat fuel) by (split; [apply Z.div_pos; lia|apply Z.div_lt_upper_bound; lia]).
    destruct fuel as [|f]. { cbn in V. assert (v / 16 = 0) by lia. lia. }
    destruct (IHfuel (v / 16) V ltac:(lia)) as (N & L & F). destruct (hexd_value (v mod 16) ltac:(lia)) as [D R].
    set (h := hexu (S f) (v / 16)) in *. cbn zeta. split; [|split].
    + unfold numeral_value in *. rewrite fold_left_app, N. cbn [fold_left]. rewrite D. lia.
    + rewrite app_length. cbn [length]. lia.
    + apply Forall_app. split; auto. constructor; auto. split; [rewrite D; lia|auto].
Qed.
Lemma hex_numeral : forall h, (0 < length h)%nat -> Forall (fun c => digit_value c <? 16 = true /\ (48 <= c <= 57 \/ 65 <= c <= 70)) h ->
  let q := read_numeral 16 h in negative q = false /\ radix_of q = 16 /\ digits_of q = h.
Proof.
  intros h L F. assert (TW : forall l, Forall (fun c => digit_value c <? 16 = true /\ (48 <= c <= 57 \/ 65 <= c <= 70)) l -> take_while (fun c => digit_value c <? 16) l = l).
  { intros l Q. apply take_while_all. eapply Forall_impl; [|apply Q]. cbn. intros a [A _]. exact A. }
  destruct h as [|c r]; [cbn in L; lia|]. pose proof (TW _ F) as T. inversion F as [|? ? [F1 F2] F3]; subst. cbv zeta. unfold read_numeral.
  assert (W : white c = false) by (unfold white; lia). cbn [take_while drop_while]. rewrite W. replace (c =? 43) with false by lia. replace (c =? 45) with false by lia. change (16 =? 16) with true. cbn iota.
  destruct r as [|x r]. { cbn [negative radix_of digits_of]. auto. } inversion F3 as [|? ? [F4 F5] F6]; subst. replace ((c =? 48) && ((x =? 120) || (x =? 88))) with false by lia. cbn [negative radix_of digits_of]. auto.
Qed.
Lemma tag_end_spec : forall h rest k, Forall (fun c => c <> 0 /\ c <> 19) h -> tag_end (h ++ 19 :: rest) k = Ret (Some (k + length h)%nat).
Proof.
  induction h as [|c h IH]; intros rest k F; cbn [app tag_end length]. - rewrite Nat.add_0_r. reflexivity.
  - inversion F as [|? ? [F1 F2] F3]; subst. replace (c =? 0) with false by lia. replace (c =? 19) with false by lia. rewrite IH by auto. do 2 f_equal. lia.
Qed.
(** addresses: different ones, none of them null *)
(** the first [n] tokens have addresses, which are not null, and no two of them have the same *)
Definition good_addr (n : nat) (addr : nat -> Z) : Prop := (forall k, (k < n)%nat -> 0 < addr k < 2 ^ 64) /\ forall j k, (j < n)%nat -> (k < n)%nat -> addr j = addr k -> j = k.
Lemma skipn_pre : forall (p s : list Z) n, skipn (length p + n) (p ++ s) = skipn n s.
Proof. induction p; intros; cbn [length plus app skipn]; auto. Qed.
Section Tok.
Context (addr : nat -> Z).
(** C167: the tag of a token, wherever it is written, is read as that token *)
Theorem tag_round_trip : forall k pre rest, 0 < addr k < 2 ^ 64 -> parse_tag (pre ++ tag addr k ++ rest) (length pre) = Ret (Some (addr k, (length pre + length (tag addr k))%nat)).
Proof.
  intros k pre rest GA1. destruct (hexu_spec 16 (addr k) ltac:(change (16 ^ Z.of_nat 16) with (2 ^ 64); lia) ltac:(lia)) as (N & L & F). unfold tag. set (h := hexu 16 (addr k)) in *. clearbody h.
  unfold parse_tag. cbn [app]. unfold rd. rewrite nth_error_app2, Nat.sub_diag by lia. cbn [nth_error obind]. change (18 =? 18) with true. cbn [negb].
  replace (S (length pre)) with (length pre + 1)%nat by lia. rewrite skipn_pre. cbn [skipn]. rewrite <- app_assoc. cbn [app]. rewrite tag_end_spec.
  2: { eapply Forall_impl; [|apply F]. cbn. intros a [_ A]. lia. }
  cbn [obind]. replace (length pre + 1 + length h - (length pre + 1))%nat with (length h) by lia.
  assert (NZ : Forall (fun c => c <> 0) h) by (eapply Forall_impl; [|apply F]; cbn; intros a [_ A]; lia).
  pose proof (strtouint_spec 64 (h ++ 19 :: rest) (length h) 16 ltac:(lia) ltac:(left; rewrite app_length; lia) ltac:(lia)) as S. cbv zeta in S. rewrite zstr_self in S by auto.
  destruct (hex_numeral h ltac:(lia) F) as (Q1 & Q2 & Q3). specialize (S Q1). rewrite S. cbn [obind]. rewrite Q2, Q3, N. unfold clamp. replace (Z.max 0 (Z.min (2 ^ 64 - 1) (addr k))) with (addr k) by lia || (destruct (addr k <? 0) eqn:E1; [lia|]; destruct (2 ^ 64 - 1 <? addr k) eqn:E2; [lia|]).
  replace (addr k =? 0) with false by lia. repeat f_equal. cbn [length]. rewrite app_length. cbn [length]. lia.
Qed.
Lemma tag_length : forall k, 0 < addr k < 2 ^ 64 -> (3 <= length (tag addr k) <= 18)%nat.
Proof. intros k GA1. destruct (hexu_spec 16 (addr k) ltac:(change (16 ^ Z.of_nat 16) with (2 ^ 64); lia) ltac:(lia)) as (N & L & F). unfold tag. cbn [length]. rewrite app_length. cbn [length]. lia. Qed.
Context (lim : nat) (GA : good_addr lim addr).
Lemma at_addr_spec : forall toks j k t, (j + length toks <= lim)%nat -> nth_error toks k = Some t -> at_addr addr toks j (addr (j + k)) = Ret t.
Proof.
  destruct GA as [_ GA2]. induction toks as [|x toks IH]; intros j k t B H. - destruct k; discriminate.
  - pose proof H as H0. assert (K : (k < length (x :: toks))%nat) by (apply nth_error_Some; congruence). cbn [length] in B, K. cbn [at_addr]. destruct k as [|k]. + rewrite Nat.add_0_r, Z.eqb_refl. cbn in H. congruence. + destruct (addr j =? addr (j + S k)) eqn:E. { assert (j = j + S k)%nat by (apply GA2; lia). lia. } replace (j + S k)%nat with (S j + k)%nat by lia. apply IH; [lia|exact H].
Qed.
Lemma deref_spec : forall toks k t, (length toks <= lim)%nat -> nth_error toks k = Some t -> deref addr toks (addr k) = Ret t.
Proof. intros toks k t B H. apply (at_addr_spec toks 0 k t B H). Qed.
Lemma at_addr_more : forall toks more j a t, at_addr addr toks j a = Ret t -> at_addr addr (toks ++ more) j a = Ret t.
Proof. induction toks as [|x toks IH]; intros more j a t H; [discriminate|]. cbn [at_addr app] in *. destruct (addr j =? a); auto. Qed.
Lemma deref_more : forall toks more a t, deref addr toks a = Ret t -> deref addr (toks ++ more) a = Ret t.
Proof. intros. apply at_addr_more. auto. Qed.

(** ** More fuel and more tokens do not change what link returns *)
Lemma link_more : forall f g toks more, (f <= g)%nat -> forall ht s n i src r, link_text addr f toks ht s n i src = Ret r -> link_text addr g (toks ++ more) ht s n i src = Ret r.
Proof.
  induction f as [|f IH]; intros g toks more L ht s n i src r H; [discriminate|]. destruct g as [|g]; [lia|]. cbn [link_text] in *. destruct (i <? n)%nat; auto.
  destruct (rd s i) as [c| |]; cbn [obind] in *; try discriminate. destruct (c =? 0); auto. destruct (parse_tag s i) as [[[a j]|]| |]; cbn [obind] in *; try discriminate.
  - destruct (deref addr toks a) as [t| |] eqn:D; cbn [obind] in H; try discriminate. rewrite (deref_more _ more _ _ D). cbn [obind].
    destruct (link_any (link_text addr f toks) t src) as [o| |] eqn:K; cbn [obind] in H; try discriminate.
    assert (K2 : link_any (link_text addr g (toks ++ more)) t src = Ret o).
    { destruct t as [x|u [] q]; cbn [link_any] in *; auto. unfold link_token in *. destruct (t_tok x); auto. apply IH; [lia|auto]. }
    rewrite K2. cbn [obind]. apply IH; [lia|auto].
  - apply IH; [lia|auto].
Qed.
(** token [k] is rendered as [o], if there are no more than [lim] tokens *)
Definition means (toks : list token) (k : nat) (o : list Z) : Prop :=
  (length toks <= lim)%nat -> exists t, nth_error toks k = Some t /\ exists F, forall f src, (F <= f)%nat -> link_any (link_text addr f toks) t src = Ret (src ++ o).
Lemma means_more : forall toks more k o, means toks k o -> means (toks ++ more) k o.
Proof.
  intros toks more k o M B. rewrite app_length in B. destruct (M ltac:(lia)) as (t & N & F & H). exists t. split. { rewrite nth_error_app1; auto. apply nth_error_Some. congruence. }
  exists F. intros f src L. specialize (H f src L). destruct t as [x|u [] q]; cbn [link_any] in *; auto. unfold link_token in *. destruct (t_tok x); auto. apply (link_more f f); auto.
Qed.
(** a text with tags is rendered as [o] *)
Inductive reads (toks : list token) (ht : bool) : list Z -> list Z -> Prop :=
| reads_nil : reads toks ht [] []
| reads_unit : forall c t o, c <> 0 -> c <> 18 -> reads toks ht t o -> reads toks ht (c :: t) ((if ht then escape_min_chr c else [c]) ++ o)
| reads_tag : forall k t o1 o, means toks k o1 -> reads toks ht t o -> reads toks ht (tag addr k ++ t) (o1 ++ o).
Lemma reads_more : forall toks more ht t o, reads toks ht t o -> reads (toks ++ more) ht t o.
Proof. induction 1; constructor; auto. apply means_more. auto. Qed.
Lemma reads_app : forall toks ht a oa b ob, reads toks ht a oa -> reads toks ht b ob -> reads toks ht (a ++ b) (oa ++ ob).
Proof. intros toks ht a oa b ob H K. induction H; cbn [app]; auto. - rewrite <- app_assoc. constructor; auto. - rewrite <- !app_assoc. constructor; auto. Qed.
Lemma reads_raw : forall toks t, ~ In 0 t -> ~ In 18 t -> reads toks false t t.
Proof. induction t as [|c t IH]; intros A B; [constructor|]. apply (reads_unit toks false c t t). - intros ->. apply A. left. auto. - intros ->. apply B. left. auto. - apply IH; intros Q; [apply A|apply B]; right; auto. Qed.
Lemma reads_text : forall toks t, ~ In 0 t -> ~ In 18 t -> reads toks true t (flat_map escape_min_chr t).
Proof. induction t as [|c t IH]; intros A B; [constructor|]. cbn [flat_map]. apply (reads_unit toks true c t). - intros ->. apply A. left. auto. - intros ->. apply B. left. auto. - apply IH; intros Q; [apply A|apply B]; right; auto. Qed.
Lemma reads_one : forall toks ht k o, means toks k o -> reads toks ht (tag addr k) o.
Proof. intros toks ht k o H. rewrite <- (app_nil_r (tag addr k)), <- (app_nil_r o). constructor; auto. constructor. Qed.
Lemma not_tag : forall s i c, rd s i = Ret c -> c <> 18 -> parse_tag s i = Ret None.
Proof. intros s i c H N. unfold parse_tag. rewrite H. cbn [obind]. replace (c =? 18) with false by lia. reflexivity. Qed.
Lemma link_reads : forall toks ht t o, (length toks <= lim)%nat -> reads toks ht t o -> exists F, forall f pre tail src, (F <= f)%nat ->
  link_text addr f toks ht (pre ++ t ++ tail) (length pre + length t) (length pre) src = Ret (src ++ o).
Proof.
  intros toks ht t o B H. induction H as [|c t o Z1 Z2 H (F & IH)|k t o1 o M0 H (F2 & IH)].
  - exists 1%nat. intros [|f] pre tail src L; [lia|]. cbn [link_text length]. rewrite Nat.add_0_r, Nat.ltb_irrefl, app_nil_r. reflexivity.
  - exists (S F). intros [|f] pre tail src L; [lia|]. cbn [link_text length]. replace (length pre <? length pre + S (length t))%nat with true by lia. cbn [app].
    assert (R : rd (pre ++ c :: t ++ tail) (length pre) = Ret c) by (unfold rd; rewrite nth_error_app2, Nat.sub_diag by lia; reflexivity). rewrite R. cbn [obind]. replace (c =? 0) with false by lia.
    rewrite (not_tag _ _ c R Z2). cbn [obind]. pose proof (IH f (pre ++ [c]) tail (src ++ (if ht then escape_min_chr c else [c])) ltac:(lia)) as E. rewrite app_length in E. cbn [length] in E. rewrite <- !app_assoc in E. cbn [app] in E. replace (length pre + 1 + length t)%nat with (length pre + S (length t))%nat in E by lia. replace (length pre + 1)%nat with (S (length pre)) in E by lia. exact E.
  - destruct (M0 B) as (tk & N & F1 & M). assert (KL : (k < length toks)%nat) by (apply nth_error_Some; congruence). assert (AK : 0 < addr k < 2 ^ 64) by (apply GA; lia). exists (S (Nat.max F1 F2)). intros [|f] pre tail src L; [lia|]. cbn [link_text]. pose proof (tag_length k AK) as TL. rewrite app_length. replace (length pre <? length pre + (length (tag addr k) + length t))%nat with true by lia.
    rewrite <- app_assoc. assert (R : rd (pre ++ tag addr k ++ t ++ tail) (length pre) = Ret 18) by (unfold rd; rewrite nth_error_app2, Nat.sub_diag by lia; reflexivity). rewrite R. cbn [obind]. change (18 =? 0) with false. cbn iota.
    rewrite tag_round_trip by auto. cbn [obind]. rewrite (deref_spec _ _ _ B N). cbn [obind]. rewrite M by lia. cbn [obind]. pose proof (IH f (pre ++ tag addr k) tail (src ++ o1) ltac:(lia)) as E. rewrite app_length in E. rewrite <- !app_assoc in E. rewrite <- Nat.add_assoc in E. exact E.
Qed.
(** a token with tags is rendered as what its text reads as *)
Lemma link_tok : forall toks x o, (length toks <= lim)%nat -> t_tok x = true -> reads toks (t_txt x) (t_text x) o -> exists F, forall f src, (F <= f)%nat -> link_token (link_text addr f toks) x src = Ret (src ++ o).
Proof.
  intros toks x o B T R. destruct (link_reads _ _ _ _ B R) as (F & H). exists F. intros f src L. unfold link_token. rewrite T. exact (H f [] [0] src L).
Qed.
Lemma each_self : forall f src t, ~ In 0 t -> each f src (t ++ [0]) (length t) = Ret (src ++ flat_map f t).
Proof. intros f src t N. rewrite each_spec by (left; rewrite app_length; lia). rewrite zstr_self; auto. apply Forall_forall. intros c I ->. auto. Qed.
Lemma means_url : forall toks k u e s, nth_error toks k = Some (TUrl u e s) -> ~ In 0 u ->
  means toks k (match e with EPlain => u | ESgml => flat_map escape_chr u | ECss => flat_map css_escape_chr u end).
Proof. intros toks k u e s N Z _. exists (TUrl u e s). split; auto. exists 0%nat. intros f src _. destruct e; cbn [link_any]; auto; apply each_self; auto. Qed.
Lemma means_plain : forall toks k x, nth_error toks k = Some (TText x) -> t_tok x = false -> t_txt x = false -> means toks k (t_text x).
Proof. intros toks k x N A B _. exists (TText x). split; auto. exists 0%nat. intros f src _. cbn [link_any]. unfold link_token. rewrite A, B. reflexivity. Qed.
Lemma means_text : forall toks k x, nth_error toks k = Some (TText x) -> t_tok x = false -> t_txt x = true -> ~ In 0 (t_text x) -> means toks k (flat_map escape_min_chr (t_text x)).
Proof. intros toks k x N A B Z _. exists (TText x). split; auto. exists 0%nat. intros f src _. cbn [link_any]. unfold link_token. rewrite A, B. apply each_self. auto. Qed.
Lemma means_tok : forall toks k x o, nth_error toks k = Some (TText x) -> t_tok x = true -> reads toks (t_txt x) (t_text x) o -> means toks k o.
Proof. intros toks k x o N A R B. exists (TText x). split; auto. destruct (link_tok _ _ _ B A R) as (F & H). exists F. exact H. Qed.
End Tok.
Print Assumptions tag_round_trip.
