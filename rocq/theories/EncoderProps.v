(** Properties C244-C247: conversion of text with charset_encoder. *)
From Coq Require Import ZifyBool ZifyNat.
From Coq Require Ascii String.
Delimit Scope string_scope with string.
Import String.StringSyntax.
From Verif Require Import Base StringModel StringSpec StringProofs EncoderModel.

(** ** Specification *)
Section Spec.
Context {Q : Type} (step : Q -> list Z -> verdict Q).
(** [converts q src out q' e]: from state q the text src becomes out, one character after the other, up to its end ([e] is None)
    or the first character that cannot be converted; q' is the state then *)
Inductive converts : Q -> list Z -> list Z -> Q -> option errno -> Prop :=
| cv_end : forall q, converts q [] [] q None
| cv_char : forall q src k o q' out q2 e, src <> [] -> step q src = VChar k o q' -> converts q' (skipn k src) out q2 e -> converts q src (o ++ out) q2 e
| cv_illegal : forall q src, src <> [] -> step q src = VIllegal -> converts q src [] q (Some EILSEQ)
| cv_incomplete : forall q src, src <> [] -> step q src = VIncomplete -> converts q src [] q (Some EINVAL).
(** a codec takes at least a byte of those there are, writes whole units and not more than 1024 bytes for a character *)
Definition codec (st : nat) : Prop := forall q src k o q', src <> [] -> step q src = VChar k o q' ->
  (0 < k <= length src)%nat /\ (length o mod st = 0)%nat /\ (length o <= 1024 / st * st)%nat.
(** what a codec says of a character does not change when more text follows *)
Definition prefix_stable : Prop := forall q src k o q' more, src <> [] -> step q src = VChar k o q' -> step q (src ++ more) = VChar k o q'.
End Spec.
(** the bytes of a text of [sf]-byte units: what is in front of its terminator, [count] units at most *)
Definition text_bytes (sf count : nat) (src : list Z) : list Z := concat (map (repr sf) (zstr count src)).

Section Props.
Context {Q : Type} (step : Q -> list Z -> verdict Q) (sf st : nat) (POS : (0 < st)%nat) (CO : codec step st).

Lemma converts_total : forall n src q, (length src < n)%nat -> exists out q' e, converts step q src out q' e.
Proof.
  induction n; intros src q L; [lia|]. destruct src as [|c src]; [exists [], q, None; constructor|]. destruct (step q (c :: src)) as [k o q'| |] eqn:E.
  - destruct (CO q (c :: src) k o q' ltac:(discriminate) E) as ([K1 K2] & _). destruct (IHn (skipn k (c :: src)) q') as (out & q2 & e & H); [rewrite skipn_length; lia|].
    exists (o ++ out), q2, e. apply (cv_char step q (c :: src) k o q' out q2 e); auto. discriminate.
  - exists [], q, (Some EILSEQ). apply cv_illegal; auto. discriminate.
  - exists [], q, (Some EINVAL). apply cv_incomplete; auto. discriminate.
Qed.
Lemma converts_fun : forall q src out q' e, converts step q src out q' e -> forall out2 q2 e2, converts step q src out2 q2 e2 -> out = out2 /\ q' = q2 /\ e = e2.
Proof.
  intros q src out q' e H. induction H as [q|q src k o q' out q2 e N E H IH|q src N E|q src N E]; intros out3 q3 e3 H3; inversion H3; subst; auto; try congruence.
  rewrite E in H1. injection H1 as <- <- <-. destruct (IH _ _ _ H2) as (-> & -> & ->). auto.
Qed.
Lemma converts_not_big : forall q src out q' e, converts step q src out q' e -> e <> Some E2BIG.
Proof. intros q src out q' e H. induction H; auto; discriminate. Qed.
Lemma mod_add : forall a b, (a mod st = 0)%nat -> (b mod st = 0)%nat -> ((a + b) mod st = 0)%nat.
Proof. intros a b A B. rewrite Nat.add_mod, A, B by lia. apply Nat.mod_0_l. lia. Qed.
Lemma iconv_spec : forall n q src cap, (length src < n)%nat -> exists q2 src2 out e, iconv step n q src cap = Ret (q2, src2, out, e) /\ (length out mod st = 0)%nat /\
  match e with
  | Some E2BIG => src2 <> [] /\ (length src2 <= length src)%nat /\ (forall o x f, converts step q2 src2 o x f -> converts step q src (out ++ o) x f) /\
                  (length src2 = length src -> exists k o x, src <> [] /\ step q src = VChar k o x /\ (cap < length o)%nat)
  | e => converts step q src out q2 e
  end.
Proof.
  induction n; intros q src cap L; [lia|]. cbn [iconv]. destruct src as [|c src].
  - exists q, [], [], None. split; auto. split; [apply Nat.mod_0_l; lia|constructor].
  - set (s := c :: src) in *. assert (NE : s <> []) by discriminate. destruct (step q s) as [k o q'| |] eqn:E.
    + destruct (CO q s k o q' NE E) as ([K1 K2] & M & C). destruct (length o <=? cap)%nat eqn:F.
      * destruct (IHn q' (skipn k s) (cap - length o)%nat) as (q2 & src2 & out & e & R & M2 & H); [rewrite skipn_length; lia|]. rewrite R. cbn [obind].
        exists q2, src2, (o ++ out), e. split; auto. split; [rewrite app_length; apply mod_add; auto|]. destruct e as [[| |]|]; try (eapply cv_char; eauto; fail).
        destruct H as (N2 & L2 & H & _). rewrite skipn_length in L2. split; auto. split; [lia|]. split.
        -- intros o2 x f Cv. rewrite <- app_assoc. eapply cv_char; eauto.
        -- intros; lia.
      * exists q, s, [], (Some E2BIG). split; auto. split; [apply Nat.mod_0_l; lia|]. split; auto. split; auto. split; auto. intros _. exists k, o, q'. split; auto. split; auto. lia.
    + exists q, s, [], (Some EILSEQ). split; auto. split; [apply Nat.mod_0_l; lia|apply cv_illegal; auto].
    + exists q, s, [], (Some EINVAL). split; auto. split; [apply Nat.mod_0_l; lia|apply cv_incomplete; auto].
Qed.
Lemma loop_spec : forall n q src dst out q' e, (length src < n)%nat -> converts step q src out q' e -> convert_loop step st n q src dst = Ret (q', dst ++ out, e).
Proof.
  induction n; intros q src dst out q' e L H; [lia|]. cbn [convert_loop]. destruct (iconv_spec (S (length src)) q src (sizeof_buf st) ltac:(lia)) as (q2 & src2 & o & f & R & M & C).
  rewrite R. cbn [obind]. replace (length o mod st =? 0)%nat with true by lia. cbn [negb]. destruct f as [[| |]|].
  - destruct C as (N & L2 & C & P). assert (length src2 < length src)%nat.
    { destruct (Nat.eq_dec (length src2) (length src)) as [X|X]; [|lia]. destruct (P X) as (k & o2 & x & NE & E & B). destruct (CO _ _ _ _ _ NE E) as (_ & _ & Y). unfold sizeof_buf in B. lia. }
    destruct (converts_total (S (length src2)) src2 q2 ltac:(lia)) as (o3 & q3 & e3 & C3). destruct (converts_fun _ _ _ _ _ H _ _ _ (C _ _ _ C3)) as (-> & -> & ->).
    rewrite (IHn q2 src2 (dst ++ o) o3 q3 e3) by (auto; lia). rewrite app_assoc. reflexivity.
  - destruct (converts_fun _ _ _ _ _ H _ _ _ C) as (-> & -> & ->). reflexivity.
  - destruct (converts_fun _ _ _ _ _ H _ _ _ C) as (-> & -> & ->). reflexivity.
  - destruct (converts_fun _ _ _ _ _ H _ _ _ C) as (-> & -> & ->). reflexivity.
Qed.
Lemma count_zstr : forall n s, readable n s -> firstn (length (zstr n s)) s = zstr n s.
Proof. intros n s R. destruct (zstr_prefix n s) as (r & E & _). rewrite E at 2. rewrite firstn_app, Nat.sub_diag, firstn_all. apply app_nil_r. Qed.

(** C244: what is appended is the text up to its terminator or count, converted character by character, whatever its length; when a
    character cannot be converted what is in front of it is appended and the error thrown; nothing else is changed. *)
Theorem strcat_spec : forall q dst src count, readable count src -> exists fuel out q' e,
  enc_strcat step sf st fuel q dst src count = Ret (q', dst ++ out, e) /\ converts step q (text_bytes sf count src) out q' e /\ e <> Some E2BIG /\
  (forall out2 q2 e2, converts step q (text_bytes sf count src) out2 q2 e2 -> out2 = out /\ q2 = q' /\ e2 = e) /\
  enc_strcpy step sf st fuel q dst src count = Ret (q', out, e) /\ enc_convert step sf st fuel q src count = Ret (q', out, e).
Proof.
  intros q dst src count R. set (t := text_bytes sf count src). destruct (converts_total (S (length t)) t q ltac:(lia)) as (out & q' & e & C). exists (S (length t)), out, q', e.
  assert (G : forall d, enc_strcat step sf st (S (length t)) q d src count = Ret (q', d ++ out, e)).
  { intros d. unfold enc_strcat. rewrite strnlen_zstr by auto. cbn [obind]. rewrite count_zstr by auto. fold (text_bytes sf count src). fold t. destruct (zstr count src) as [|c l] eqn:Zs.
    - cbn [length Nat.eqb]. assert (T : t = []) by (unfold t, text_bytes; rewrite Zs; reflexivity). rewrite T in C. inversion C; subst; try congruence. rewrite app_nil_r. reflexivity.
    - cbn [length Nat.eqb]. apply loop_spec; auto. }
  split; [apply G|]. split; auto. split; [eapply converts_not_big; eauto|]. split; [|split; apply G]. intros out2 q2 e2 C2. destruct (converts_fun _ _ _ _ _ C2 _ _ _ C) as (-> & -> & ->). auto.
Qed.

(** C245: a text may be converted in parts with the same encoder, when the parts end between characters *)
Lemma converts_app : prefix_stable step -> forall q a out q' e, converts step q a out q' e -> e = None -> forall b out2 q2 e2, converts step q' b out2 q2 e2 -> converts step q (a ++ b) (out ++ out2) q2 e2.
Proof.
  intros PS q a out q' e H. induction H as [q|q src k o q' out q2 e N E H IH|q src N E|q src N E]; intros Z b out3 q3 e3 H3; try discriminate; auto.
  rewrite <- app_assoc. destruct (CO _ _ _ _ _ N E) as (K & _). apply (cv_char step q (src ++ b) k o q').
  - intros X. apply app_eq_nil in X as [X _]. auto.
  - apply PS; auto.
  - rewrite skipn_app. replace (k - length src)%nat with 0%nat by lia. rewrite skipn_O. apply IH; auto.
Qed.
Theorem strcat_parts : prefix_stable step -> forall q dst a b q1 d1 f1, ~ In 0 a -> ~ In 0 b ->
  enc_strcat step sf st f1 q dst a (length a) = Ret (q1, d1, None) -> exists fuel r,
  enc_strcat step sf st fuel q1 d1 b (length b) = Ret r /\ enc_strcat step sf st fuel q dst (a ++ b) (length (a ++ b)) = Ret r.
Proof.
  intros PS q dst a b q1 d1 f1 Na Nb H1.
  assert (ZA : forall l, ~ In 0 l -> zstr (length l) l = l). { induction l as [|c l IH]; intros N; auto. cbn [length zstr]. replace (c =? 0) with false by (symmetry; apply Z.eqb_neq; intros ->; apply N; left; auto). f_equal. apply IH. intros X. apply N. right. auto. }
  set (ta := concat (map (repr sf) a)). set (tb := concat (map (repr sf) b)).
  assert (G : forall l d p n o p' e, ~ In 0 l -> (length (concat (map (repr sf) l)) < n)%nat -> converts step p (concat (map (repr sf) l)) o p' e -> enc_strcat step sf st n p d l (length l) = Ret (p', d ++ o, e)).
  { intros l d p n o p' e N L C. unfold enc_strcat. rewrite strnlen_zstr by (left; auto). cbn [obind]. rewrite ZA by auto. rewrite firstn_all. destruct l as [|c l]; cbn [length Nat.eqb].
    - cbn in C. inversion C; subst; try congruence. rewrite app_nil_r. reflexivity.
    - apply loop_spec; auto. }
  assert (MONO : forall n p src d r, convert_loop step st n p src d = Ret r -> forall k, convert_loop step st (n + k) p src d = Ret r).
  { induction n; intros p src d r X k; [discriminate|]. cbn [convert_loop Nat.add] in *. destruct (iconv step (S (length src)) p src (sizeof_buf st)) as [[[[x y] z] w]| |]; cbn [obind] in *; try discriminate. destruct (negb _); [discriminate|]. destruct w as [[| |]|]; auto. }
  assert (H1' : forall k, enc_strcat step sf st (f1 + k) q dst a (length a) = Ret (q1, d1, None)).
  { intros k. unfold enc_strcat in *. destruct (strnlen a (length a)) as [x| |]; cbn [obind] in *; try discriminate. destruct (x =? 0)%nat; auto. }
  destruct (converts_total (S (length ta)) ta q ltac:(lia)) as (oa & qa & ea & Ca). specialize (H1' (S (length ta))). unfold ta in Ca, H1'. rewrite (G a dst q _ oa qa ea Na) in H1' by (auto; lia). injection H1' as -> <- ->.
  destruct (converts_total (S (length tb)) tb q1 ltac:(lia)) as (ob & qb & eb & Cb). unfold tb in Cb.
  exists (S (length ta + length tb)), (qb, (dst ++ oa) ++ ob, eb). split.
  - apply G; auto. fold tb. lia.
  - rewrite <- app_assoc. apply G; [intros X; apply in_app_or in X; tauto| |].
    + rewrite map_app, concat_app, app_length. fold ta tb. lia.
    + rewrite map_app, concat_app. eapply converts_app; eauto.
Qed.
End Props.

(** ** UTF-7 *)
Lemma sextets_len : forall f n bits, (length (fst (fst (sextets f n bits))) <= f)%nat.
Proof. induction f; intros n bits; cbn [sextets]; auto. destruct (n <? 6); cbn [fst length]; [lia|]. specialize (IHf (n - 6) (bits mod 2 ^ (n - 6))). destruct (sextets f _ _) as [[l n'] b']. cbn [fst length] in *. lia. Qed.
Lemma u7_codec : codec u7_step 1.
Proof.
  intros q src k o q' N E. destruct src as [|a [|b [|c [|d src]]]]; try discriminate. unfold u7_step in E. cbv zeta in E. rewrite Nat.mod_1_r. destruct (65536 <=? _); [discriminate|].
  change (1024 / 1 * 1)%nat with 1024%nat. destruct (direct _).
  - injection E as <- <- <-. cbn [length]. repeat split; try lia. rewrite app_length. unfold pending. cbn [length]. destruct (u_in q), (u_n q =? 0); cbn; lia.
  - pose proof (sextets_len 4 (u_n q + 16) (u_bits q * 65536 + (a + 256 * b + 65536 * c + 16777216 * d))) as L. destruct (sextets 4 _ _) as [[l n] bits]. injection E as <- <- <-. cbn [length fst] in *. repeat split; try lia. rewrite app_length. destruct (u_in q); cbn [length]; lia.
Qed.
Lemma u7_stable : prefix_stable u7_step.
Proof. intros q src k o q' more N E. destruct src as [|a [|b [|c [|d src]]]]; try discriminate. exact E. Qed.

(** The codec against RFC 2152: the alphabet of Base64, and its examples 1 and 3 *)
Theorem u7_alphabet : map (fun i => b64c (Z.of_nat i)) (seq 0 64) =
  map (fun a => Z.of_nat (Ascii.nat_of_ascii a)) (String.list_ascii_of_string "ABCDEFGHIJKLMNOPQRSTUVWXYZabcdefghijklmnopqrstuvwxyz0123456789+/"%string).
Proof. reflexivity. Qed.
Example u7_rfc : (match enc_convert u7_step 4 1 10 u7_start [26085; 26412; 35486] 3 with Ret (q, out, None) => out ++ u7_finish q | _ => [] end) =
  map (fun a => Z.of_nat (Ascii.nat_of_ascii a)) (String.list_ascii_of_string "+ZeVnLIqe-"%string).
Proof. vm_compute. reflexivity. Qed.

(** C246, refuted: the text appended is the whole text in the charset, with what ends it.  The e with acute becomes +AO; the k that
    has its last bits and the minus that ends Base64 are never written. *)
Definition complete {Q} (step : Q -> list Z -> verdict Q) (finish : Q -> list Z) (start : Q) (bytes whole : list Z) : Prop :=
  exists out q', converts step start bytes out q' None /\ whole = out ++ finish q'.
Theorem utf7_refuted : exists src q', (forall dst, enc_convert u7_step 4 1 10 u7_start src 1 = Ret (q', dst, None) -> ~ complete u7_step u7_finish u7_start (text_bytes 4 1 src) dst) /\
  enc_convert u7_step 4 1 10 u7_start src 1 = Ret (q', [43; 65; 79], None) /\ complete u7_step u7_finish u7_start (text_bytes 4 1 src) [43; 65; 79; 107; 45].
Proof.
  assert (C : converts u7_step u7_start (text_bytes 4 1 [233]) [43; 65; 79] (U7 true 4 9) None).
  { change (text_bytes 4 1 [233]) with [233; 0; 0; 0]. change [43; 65; 79] with ([43; 65; 79] ++ []). eapply cv_char with (k := 4%nat) (q' := U7 true 4 9); [discriminate|reflexivity|]. constructor. }
  exists [233], (U7 true 4 9). split; [|split; [vm_compute; reflexivity|exists [43; 65; 79], (U7 true 4 9); split; [exact C|reflexivity]]].
  intros dst E (out & q' & C2 & ->). destruct (converts_fun u7_step _ _ _ _ _ C2 _ _ _ C) as (-> & -> & _). vm_compute in E. discriminate.
Qed.
(** What holds: where nothing is left to write at the end, as for every charset without shift states, it is whole. *)
Theorem complete_partial : forall {Q} (step : Q -> list Z -> verdict Q) sf st finish start src count, (0 < st)%nat -> codec step st -> readable count src ->
  exists fuel, forall out q', enc_convert step sf st fuel start src count = Ret (q', out, None) -> finish q' = [] -> complete step finish start (text_bytes sf count src) out.
Proof.
  intros Q step sf st finish start src count P C R. destruct (strcat_spec step sf st P C start [] src count R) as (fuel & o & q2 & e & _ & Cv & _ & _ & _ & E). exists fuel.
  intros out q' H F. rewrite E in H. injection H as <- <- ->. exists o, q2. split; auto. rewrite F. symmetry. apply app_nil_r.
Qed.
(** C247, refuted: what a conversion gives does not depend on what the encoder converted before.  After the e with acute, the
    letter a becomes k-a. *)
Theorem independent_refuted : exists src1 src2 q1 out1 q2 q3, enc_convert u7_step 4 1 10 u7_start src1 1 = Ret (q1, out1, None) /\
  enc_convert u7_step 4 1 10 q1 src2 1 = Ret (q2, [107; 45; 97], None) /\ enc_convert u7_step 4 1 10 u7_start src2 1 = Ret (q3, [97], None).
Proof. exists [233], [97]. do 4 eexists. split; [vm_compute; reflexivity|]. split; vm_compute; reflexivity. Qed.
(** What holds: a conversion that holds nothing back leaves nothing to the next, if of the states that can come up only the initial
    one holds nothing back. *)
Definition holds_back_shift {Q : Type} (step : Q -> list Z -> verdict Q) (finish : Q -> list Z) (start : Q) : Prop :=
  forall bytes out q, converts step start bytes out q None -> finish q = [] -> q = start.
Theorem independent_partial : forall {Q : Type} (step : Q -> list Z -> verdict Q) sf st finish (start : Q), (0 < st)%nat -> codec step st -> holds_back_shift step finish start ->
  forall src1 c1 src2 c2, readable c1 src1 -> exists fuel1, forall q1 out1, enc_convert step sf st fuel1 start src1 c1 = Ret (q1, out1, None) ->
  finish q1 = [] -> forall fuel2, enc_convert step sf st fuel2 q1 src2 c2 = enc_convert step sf st fuel2 start src2 c2.
Proof.
  intros Q step sf st finish start P C F src1 c1 src2 c2 R. destruct (strcat_spec step sf st P C start [] src1 c1 R) as (fuel & o & q2 & e & _ & Cv & _ & _ & _ & E). exists fuel.
  intros q1 out1 H N fuel2. rewrite E in H. injection H as <- <- ->. rewrite (F _ _ _ Cv N). reflexivity.
Qed.
Lemma u7_holds_back : holds_back_shift u7_step u7_finish u7_start.
Proof.
  intros bytes out q H. assert (G : forall s, (u_in s = false -> s = u7_start) -> forall b o p e, converts u7_step s b o p e -> u_in p = false -> p = u7_start).
  { intros s I b o p e Cv. induction Cv as [s|s src k o s' out2 p e N E Cv IH|s src N E|s src N E]; auto. apply IH. clear - E. intros F.
    destruct src as [|a [|b [|c [|d src]]]]; try discriminate. unfold u7_step in E. cbv zeta in E. destruct (65536 <=? _); [discriminate|]. destruct (direct _).
    - injection E as _ _ <-. reflexivity.
    - destruct (sextets 4 _ _) as [[l n] bits]. injection E as _ _ <-. discriminate. }
  intros F. apply (G u7_start ltac:(auto) _ _ _ _ H). unfold u7_finish in F. destruct (u_in q); auto. apply app_eq_nil in F as [_ F]. discriminate.
Qed.
(** not vacuous: a text of 300 characters, which takes two rounds of the buffer: 1 and 1 + 3 bytes for each *)
Example encoder_ex : exists q, enc_strcat u7_step 4 1 10 u7_start [1] ([65; 43] ++ [0; 7]) 5 = Ret (q, [1; 65; 43; 65; 67], None) /\
  match enc_convert u7_step 4 1 3 u7_start (repeat 233 700) 700 with Ret (_, out, None) => length out = 1867%nat | _ => False end.
Proof. eexists. split; vm_compute; reflexivity. Qed.
